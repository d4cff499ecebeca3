(** The places of the hexagons. *)
From Coq Require Import Reals Lra Psatz ZArith List Bool Arith Lia.
From Verif Require Import Num GeoModel EdgeModel PlanModel FloorModel GeoSpec GeoMat GeoFig EdgeSpecR EdgeContains EdgeReal EdgePath HullSpec FloorSpec WallProof HexGrid HexIn HexIn2 HexIn3.
Import ListNotations.
Open Scope R_scope.

Section Place.
Variable h : @hex_cfg Rnum.
Notation R0 := (@maxRadius Rnum h).
Notation PX := (@xPitch Rnum h).
Notation PY := (@yPitch Rnum h).
Variable edge : list pt.
Variable segs : list (@segment Rnum).
Definition visited limX limY x0 y0 (hx : list pt) : Prop := exists row col hs, In hx hs /\ let x := x0 + PX / 2 * INR (Nat.modulo row 2) + INR col * PX in let y := y0 + PY / 2 * INR row in
  x < limX /\ y < limY /\ @hexAt Rnum h edge segs x y = Ok hs.
Lemma row_visited limX limY x0 y0 fuel row col hs hx : y0 + PY / 2 * INR row < limY ->
  @hexRow Rnum h fuel edge segs limX (x0 + PX / 2 * INR (Nat.modulo row 2) + INR col * PX) (y0 + PY / 2 * INR row) = Ok hs -> In hx hs -> visited limX limY x0 y0 hx.
Proof.
  intros LY. revert col hs. induction fuel as [|fuel IH]; intros col hs E I; cbn [hexRow] in E; (match type of E with (if ?b then _ else _) = _ => destruct b eqn:C end; [|apply Ok_inj in E; subst hs; destruct I]); [discriminate|].
  match type of C with @nltb Rnum ?a ?b = true => change (Rltb a b = true) in C end. apply Rltb_true in C.
  apply bind_ok in E. destruct E as (h1 & E1 & E). apply bind_ok in E. destruct E as (h2 & E2 & E). apply Ok_inj in E. subst hs.
  apply in_app_or in I. destruct I as [I|I].
  - exists row, col, h1. auto.
  - apply (IH (S col) h2); [|exact I]. rewrite S_INR. change (@nadd Rnum) with Rplus in E2. rewrite <- E2. f_equal. ring.
Qed.
Lemma rows_visited limX limY x0 y0 rf fuel row hs hx :
  @hexRows Rnum h fuel rf edge segs limX limY x0 y0 (Z.of_nat row) (x0 + PX / 2 * INR (Nat.modulo row 2)) (y0 + PY / 2 * INR row) = Ok hs -> In hx hs -> visited limX limY x0 y0 hx.
Proof.
  revert row hs. induction fuel as [|fuel IH]; intros row hs E I; cbn [hexRows] in E; (match type of E with (if ?b then _ else _) = _ => destruct b eqn:C end; [|apply Ok_inj in E; subst hs; destruct I]); [discriminate|].
  match type of C with @nltb Rnum ?a ?b = true => change (Rltb a b = true) in C end. apply Rltb_true in C.
  apply bind_ok in E. destruct E as (h1 & E1 & E). apply bind_ok in E. destruct E as (h2 & E2 & E). apply Ok_inj in E. subst hs.
  apply in_app_or in I. destruct I as [I|I].
  - apply (row_visited limX limY x0 y0 rf row 0 h1); [exact C| |exact I]. rewrite <- E1. f_equal. change (INR 0) with 0. ring.
  - apply (IH (S row) h2); [|exact I]. rewrite <- E2. replace (Z.add (Z.of_nat row) 1) with (Z.of_nat (S row)) by lia.
    cbn [nadd nmul ndiv Rnum nZ]. rewrite INR_IZR_INZ, Nat2Z.inj_mod, (INR_IZR_INZ (S row)). reflexivity.
Qed.
End Place.
Lemma raw_place (h : @hex_cfg Rnum) fuel edge hs hx : hexRaw h fuel edge = Ok hs -> In hx hs ->
  exists x y h1, grid_place edge (hx_maxDiameter h / 2) (hx_holeMargin h) (hx_xOffset h) (hx_yOffset h) (P x y 0) /\ hexAt h edge (toSegments edge true) x y = Ok h1 /\ In hx h1.
Proof.
  unfold hexRaw. intros E I. apply bind_ok in E; destruct E as (m1 & E1 & E). apply bind_ok in E; destruct E as (m2 & E2 & E). apply bind_ok in E; destruct E as (m3 & E3 & E). apply bind_ok in E; destruct E as (m4 & E4 & E). cbv zeta in E.
  match type of E with hexRows _ _ _ _ _ _ _ ?a ?b _ _ _ = _ => set (x0 := a) in *; set (y0 := b) in * end.
  assert (E' : hexRows h fuel fuel edge (toSegments edge true) (m2 + maxRadius h)%R (m4 + minRadius h)%R x0 y0 (Z.of_nat 0) (x0 + xPitch h / 2 * INR (Nat.modulo 0 2))%R (y0 + yPitch h / 2 * INR 0)%R = Ok hs).
  { rewrite <- E. f_equal; change (Nat.modulo 0 2) with 0%nat; change (INR 0) with 0; first [reflexivity | ring | apply f_equal2; ring]. }
  destruct (rows_visited h edge _ _ _ _ _ _ _ _ _ _ E' I) as (row & col & h1 & I1 & LX & LY & EH). cbv zeta in *.
  eexists; eexists; exists h1. split; [|split; [exact EH|exact I1]].
  exists m1, m2, m3, m4, row, col. pose proof (minRadius_eq h) as MR. pose proof (yPitch_eq h) as YE. pose proof (pitch_eq h) as XE. assert (RE : @maxRadius Rnum h = hx_maxDiameter h / 2) by reflexivity.
  split; [exact (minList_spec _ _ E1)|]. split; [exact (maxList_spec _ _ E2)|]. split; [exact (minList_spec _ _ E3)|]. split; [exact (maxList_spec _ _ E4)|].
  assert (YE' : sqrt 3 * (hx_maxDiameter h / 2) + hx_holeMargin h = @yPitch Rnum h) by (rewrite YE, RE; field).
  cbv zeta. rewrite YE'. unfold X, Y. cbn [vx vy]. rewrite RE, MR in *. split; [|split].
  - unfold P. apply (f_equal3 (@V Rnum)); [| |reflexivity].
    + match goal with |- ?a = ?b => change (@eq R a b) end. unfold x0; cbn [nadd nsub Rnum]; rewrite XE, RE; field.
    + match goal with |- ?a = ?b => change (@eq R a b) end. unfold y0; cbn [nadd nsub Rnum]; rewrite MR; field.
  - unfold P. cbn [vx]. lra.
  - unfold P. cbn [vy]. lra.
Qed.
Lemma raw_inside (h : @hex_cfg Rnum) fuel edge hs hx w : 0 < hx_maxDiameter h -> hexRaw h fuel edge = Ok hs -> In hx hs ->
  (forall c, grid_place edge (hx_maxDiameter h / 2) (hx_holeMargin h) (hx_xOffset h) (hx_yOffset h) c -> clear_of edge (hexagon c (hx_maxDiameter h / 2))) ->
  strictly_inside hx w -> contains2D edge w = Ok true /\ forall n, (n < length edge)%nat -> ~ on_seg2 (cyc edge n) (cyc edge (S n)) w.
Proof.
  intros D E I CL HW. destruct (raw_place h fuel edge hs hx E I) as (x & y & h1 & G & EH & I1). apply (hexAt_inside h edge x y h1 hx w); [unfold maxRadius; cbn [ndiv nZ Rnum]; lra|exact EH|exact I1|exact (CL _ G)|exact HW].
Qed.
