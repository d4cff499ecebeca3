(** Properties C73-C76: the hexagonal holes of the floor, and the point-in-polygon test along paths.
    Read with HullSpec.v (spanned), EdgeSpecR.v (cyc, strictly_inside, separated) and FloorSpec.v (hexagon, grid_place, clear_of). *)
From Coq Require Import Reals Lra Psatz ZArith List Bool Arith Lia.
From Verif Require Import Num Calc GeoModel EdgeModel GeoSpec GeoMat ArcModel PlanModel FloorModel EdgeSpecR EdgeContains HullSpec FloorSpec EdgePath
  HexGrid HexRound HexEnd HexIn HexIn2 HexIn3 HexPlace P_Layout P_Plan P_Body.
Import ListNotations.
Open Scope R_scope.

(** ** C73 shape, size and distance of the holes *)
(* every hole is a regular hexagon of the full size, or one that is not smaller than the minimum *)
Theorem C73_shape : forall (h : @hex_cfg Rnum) fuel border hs hx, 0 < hx_maxDiameter h -> hexRaw h fuel border = Ok hs -> In hx hs ->
  exists c r, hx = hexagon c r /\ 0 < 2 * r <= hx_maxDiameter h /\ (2 * r = hx_maxDiameter h \/ hx_minDiameter h <= 2 * r).
Proof.
  intros h fuel border hs hx D E I. assert (ER : @maxRadius Rnum h = hx_maxDiameter h / 2) by reflexivity.
  destruct (raw_shape h fuel border hs hx) as (c & r & -> & B & S); [rewrite ER; lra|exact E|exact I|]. exists c, r. split; [reflexivity|]. rewrite ER in *. split; [lra|]. destruct S as [->|S]; [left; field|right; exact S].
Qed.
Print Assumptions C73_shape.
(* between two holes there is at least the margin *)
Theorem C73_apart : forall (h : @hex_cfg Rnum) fuel border hs i j h1 h2 u v, 0 <= hx_maxDiameter h -> 0 <= sqrt 3 / 2 * hx_maxDiameter h + hx_holeMargin h ->
  hexRaw h fuel border = Ok hs -> nth_error hs i = Some h1 -> nth_error hs j = Some h2 -> i <> j ->
  spanned h1 u -> spanned h2 v -> hx_holeMargin h <= edist2 u v.
Proof.
  intros h fuel border hs i j h1 h2 u v D PI E I J N. assert (ER : @maxRadius Rnum h = hx_maxDiameter h / 2) by reflexivity.
  apply (raw_apart h fuel border hs i j h1 h2 u v); try assumption; [rewrite ER; lra|]. rewrite yPitch_eq, ER. lra.
Qed.
Print Assumptions C73_apart.
(* rounding the corners removes material from the holes only: the rounded holes are the hexagons, one by one, each inside its hexagon *)
Theorem C73_rounded : forall (h : @hex_cfg Rnum) ch amax fuel border hs hr, 0 < hx_maxDiameter h -> 0 < ch <= 2 * hx_cornerRadius h -> 0 < amax -> eps <= hx_cornerRadius h ->
  2 * hx_cornerRadius h <= sqrt 3 * hx_minDiameter h -> 2 * hx_cornerRadius h <= sqrt 3 * hx_maxDiameter h ->
  hexRaw h fuel border = Ok hs -> hexGrid2D (@mkQuality Rnum ch amax) h fuel border = Ok hr ->
  Forall2 (fun hx rounded => forall p, spanned rounded p -> spanned hx p) hs hr.
Proof.
  intros h ch amax fuel border hs hr D HC HA HE H1 H2 E G. unfold hexGrid2D in G. rewrite E in G. cbn [bind] in G.
  assert (C : @nltb Rnum (@nZ Rnum 0) (hx_cornerRadius h) = true). { apply Rltb_true. change (@nZ Rnum 0) with 0. unfold eps in HE. lra. }
  rewrite C in G. apply mapM_ok in G. clear C.
  assert (SH : forall hx, In hx hs -> exists c r, hx = hexagon c r /\ 0 < r /\ hx_cornerRadius h * hx_cornerRadius h <= 3 * (r * r)).
  { intros hx I. destruct (C73_shape h fuel border hs hx D E I) as (c & r & -> & B & S). exists c, r. split; [reflexivity|]. split; [lra|]. pose proof sq3 as Q3. pose proof sq3_pos as Q0. unfold eps in HE.
    assert (L : hx_cornerRadius h <= sqrt 3 * r) by (destruct S as [S|S]; nra).
    replace (3 * (r * r)) with (sqrt 3 * r * (sqrt 3 * r)) by (transitivity (sqrt 3 * sqrt 3 * (r * r)); [ring|rewrite Q3; ring]). apply Rmult_le_compat; lra. }
  clear E. induction G as [|hx rd hs hr Q G IH]; constructor.
  - destruct (SH hx (or_introl eq_refl)) as (c & r & -> & Hr & K). intros p S. induction S as [v w I EX EY|a b w _ IH1 _ IH2 O]; [|apply (sp_between _ a b); assumption].
    pose proof (hexRound_inside ch amax h c r rd v Hr HE HC HA K Q I) as SV. clear - SV EX EY. revert w EX EY. induction SV as [u v I A B|a b v SA _ SB _ (t & T & A & B)]; intros w EX EY.
    + apply (sp_point _ u); [exact I|congruence|congruence].
    + apply (sp_between _ a b); [exact SA|exact SB|]. exists t. split; [exact T|]. split; congruence.
  - apply IH. intros hx' I. apply SH. right. exact I.
Qed.
Print Assumptions C73_rounded.

(** ** C74 the holes stay inside of the border *)
Theorem C74_inside : forall (h : @hex_cfg Rnum) fuel border hs hx w, 0 < hx_maxDiameter h -> hexRaw h fuel border = Ok hs -> In hx hs ->
  (forall c, grid_place border (hx_maxDiameter h / 2) (hx_holeMargin h) (hx_xOffset h) (hx_yOffset h) c -> clear_of border (hexagon c (hx_maxDiameter h / 2))) ->
  strictly_inside hx w ->
  contains2D border w = Ok true /\ forall n, (n < length border)%nat -> ~ on_seg2 (cyc border n) (cyc border (S n)) w.
Proof. exact raw_inside. Qed.
Print Assumptions C74_inside.

(** ** C75 point in polygon along a path *)
(* no point of the straight line from p to q is on the closed polygon *)
Definition crosses_no_side (l : list pt) (p q : pt) : Prop := forall i w, (i < length l)%nat -> on_seg2 p q w -> ~ on_seg2 (cyc l i) (cyc l (S i)) w.
(* a path of straight lines *)
Fixpoint path_avoids (l : list pt) (p : pt) (path : list pt) : Prop := match path with [] => True | q :: r => crosses_no_side l p q /\ path_avoids l q r end.
Theorem C75_constant_along_paths : forall (l : list pt) path p, path_avoids l p path -> contains2D l p = contains2D l (last path p).
Proof.
  intros l path. induction path as [|q path IH]; intros p H; [reflexivity|]. destruct H as (H1 & H2).
  transitivity (contains2D l q). { apply contains_path. intros i I w A B. exact (H1 i w I A B). }
  rewrite (IH q H2). f_equal. clear. revert q. induction path as [|a path IH]; intros q; [reflexivity|]. cbn [last] in *. destruct path; [reflexivity|]. apply IH.
Qed.
Print Assumptions C75_constant_along_paths.
(* so a point from which a path leads away from the polygon is outside *)
Theorem C75_outside : forall (l : list pt) path p, path_avoids l p path -> separated l (last path p) -> contains2D l p = Ok false.
Proof. intros l path p H S. rewrite (C75_constant_along_paths l path p H). apply contains_separated, S. Qed.
Print Assumptions C75_outside.
(* a point on the other side of a single side is on the other side: the U, its notch and its leg *)
Definition u_shape : list pt := [P 0 0 0; P 6 0 0; P 6 4 0; P 4 4 0; P 4 2 0; P 2 2 0; P 2 4 0; P 0 4 0].
Example C75_nonvacuous : path_avoids u_shape (P 3 3 0) [P 3 5 0; P 8 5 0] /\ separated u_shape (P 8 5 0) /\ path_avoids u_shape (P 1 3 0) [P 1 1 0; P 5 1 0; P 5 3 0] /\
  contains2D u_shape (P 3 3 0) = Ok false /\ contains2D u_shape (P 5 3 0) = Ok true.
Proof.
  assert (A : forall p q, (forall i, (i < 8)%nat -> forall s t, 0 <= s <= 1 -> 0 <= t <= 1 -> X p + s * (X q - X p) = X (cyc u_shape i) + t * (X (cyc u_shape (S i)) - X (cyc u_shape i)) -> Y p + s * (Y q - Y p) = Y (cyc u_shape i) + t * (Y (cyc u_shape (S i)) - Y (cyc u_shape i)) -> False) -> crosses_no_side u_shape p q).
  { intros p q H i w I (s & S & A1 & A2) (t & T & B1 & B2). apply (H i I s t S T); [rewrite <- (proj1 (at2_xy _ _ _)), <- A1, B1, (proj1 (at2_xy _ _ _)); reflexivity|rewrite <- (proj2 (at2_xy _ _ _)), <- A2, B2, (proj2 (at2_xy _ _ _)); reflexivity]. }
  assert (P1 : path_avoids u_shape (P 3 3 0) [P 3 5 0; P 8 5 0]).
  { split; [|split; [|exact I]]; apply A; intros i J s t S T; do 8 (destruct i as [|i]; [unfold cyc, u_shape, P, X, Y; cbn [nth length vx vy Nat.modulo Nat.divmod Nat.sub fst snd]; intros; nra|]); lia. }
  assert (P2 : path_avoids u_shape (P 1 3 0) [P 1 1 0; P 5 1 0; P 5 3 0]).
  { split; [|split; [|split; [|exact I]]]; apply A; intros i J s t S T; do 8 (destruct i as [|i]; [unfold cyc, u_shape, P, X, Y; cbn [nth length vx vy Nat.modulo Nat.divmod Nat.sub fst snd]; intros; nra|]); lia. }
  assert (SP : separated u_shape (P 8 5 0)).
  { exists 1, 0. intros a I. cbn [u_shape In] in I. repeat (destruct I as [<-|I]; [unfold P, X, Y; cbn [vx vy]; lra|]). destruct I. }
  split; [exact P1|]. split; [exact SP|]. split; [exact P2|]. split; [exact (C75_outside _ _ _ P1 SP)|].
  change (P 5 3 0) with (last [P 1 1 0; P 5 1 0; P 5 3 0] (P 1 3 0)). rewrite <- (C75_constant_along_paths _ _ _ P2).
  rewrite contains_x. unfold xloop, u_shape. cbn. unfold cb, above, side. cbn.
  repeat match goal with |- context [Rltb ?a ?b] => first [replace (Rltb a b) with true by (symmetry; apply Rltb_true; unfold X, Y, P; cbn; lra)|replace (Rltb a b) with false by (symmetry; apply Rltb_false; unfold X, Y, P; cbn; lra)] end. reflexivity.
Qed.

(** ** C76 the grid ends *)
Theorem C76_ends : forall (h : @hex_cfg Rnum) border, 0 < sqrt 3 / 2 * hx_maxDiameter h + hx_holeMargin h ->
  exists n, forall fuel, (n <= fuel)%nat -> hexRaw h fuel border <> Err OutOfFuel.
Proof. intros h border PI. apply raw_ends. rewrite yPitch_eq. change (@maxRadius Rnum h) with (hx_maxDiameter h / 2). lra. Qed.
Print Assumptions C76_ends.
(* with holes that are not positive, and a margin that does not make up for it, the first row has no end *)
Theorem C76_endless : forall (h : @hex_cfg Rnum) border fuel hs x0 x1 y0 y1, sqrt 3 / 2 * hx_maxDiameter h + hx_holeMargin h <= 0 ->
  smallest x0 (map X border) -> largest x1 (map X border) -> smallest y0 (map Y border) -> largest y1 (map Y border) ->
  x0 + hx_xOffset h < x1 -> y0 + hx_yOffset h - (sqrt 3 / 2 * hx_maxDiameter h + hx_holeMargin h) < y1 -> hexRaw h fuel border <> Ok hs.
Proof.
  intros h border fuel hs x0 x1 y0 y1 PI SX LX SY LY HX HY. assert (YE : sqrt 3 / 2 * hx_maxDiameter h + hx_holeMargin h = @yPitch Rnum h) by (rewrite yPitch_eq; change (@maxRadius Rnum h) with (hx_maxDiameter h / 2); field).
  assert (GM : forall x l, smallest x l -> minList l = Ok x).
  { intros x l (I & M). destruct l as [|a l]; [destruct I|]. destruct (@minList Rnum (a :: l)) as [d|] eqn:E; [|discriminate]. destruct (WallProof.minList_spec _ _ E) as (I' & M'). f_equal. apply Rle_antisym; auto. }
  assert (GX : forall x l, largest x l -> maxList l = Ok x).
  { intros x l (I & M). destruct l as [|a l]; [destruct I|]. destruct (@maxList Rnum (a :: l)) as [d|] eqn:E; [|discriminate]. destruct (WallProof.maxList_spec _ _ E) as (I' & M'). f_equal. apply Rle_antisym; auto. }
  rewrite YE in *. apply (raw_never h border x0 x1 y0 y1 fuel hs PI); auto.
Qed.
Print Assumptions C76_endless.

(* Concrete cases, in fixed point arithmetic: a border whose sides are not parallel to those of the hexagons, with full and scaled holes. *)
Open Scope Z_scope.
Definition hex_small : @hex_cfg Calc := @mkHexCfg Calc (dq 8 1) (dq 24 1) (dq 1 1) (dq (-2) 1) (dq (-1) 1) (dq 5 1) (dq 4 1).
Definition border_small : list (@vec Calc) := [@V Calc (dq 3 1) (dq 1 1) 0; @V Calc (dq 91 1) (dq 7 1) 0; @V Calc (dq 84 1) (dq 71 1) 0; @V Calc (dq (-2) 1) (dq 69 1) 0].
Definition zfree (x : BinNums.Z) : bool := (x =? 0) || (@nQ Calc 1 1000000 <=? Z.abs x).
Definition turnb (a b c d : @vec Calc) : BinNums.Z := @nsub Calc (@nmul Calc (@nsub Calc (vx b) (vx a)) (@nsub Calc (vy d) (vy c))) (@nmul Calc (@nsub Calc (vy b) (vy a)) (@nsub Calc (vx d) (vx c))).
Definition clear_ofb (border hx : list (@vec Calc)) : bool :=
  forallb (fun s : @segment Calc => let a := sa s in let b := sb s in
    forallb (fun c => (vz a =? 0) && negb (visClose a c) && match sdistance2D s c with Ok d => @nQ Calc 1 1000000 <? d | _ => false end &&
      forallb (fun v => zfree (turnb c v a b) && forallb (fun w => zfree (turnb v w c a)) hx) hx) hx) (toSegments border true).
(* the places of grid_place, row by row *)
Definition places (x0 x1 y0 y1 : BinNums.Z) (h : @hex_cfg Calc) (n : nat) : list (BinNums.Z * BinNums.Z) :=
  let r := @maxRadius Calc h in
  let pitch := @yPitch Calc h in
  filter (fun c => (fst c <? x1 + r) && (snd c <? y1 + @minRadius Calc h))
    (flat_map (fun row => map (fun col =>
       (x0 + r + hx_xOffset h + @nmul Calc (@nmul Calc (@root3 Calc) pitch) (@ndiv Calc (@nZ Calc (2 * Z.of_nat col + Z.of_nat row mod 2)) (@nZ Calc 2)),
        y0 + @minRadius Calc h + hx_yOffset h + @nmul Calc pitch (@nsub Calc (@ndiv Calc (@nZ Calc (Z.of_nat row)) (@nZ Calc 2)) (@nZ Calc 1)))) (seq 0 n)) (seq 0 n)).
Definition hex_places := places (dq (-2) 1) (dq 91 1) (dq 1 1) (dq 71 1) hex_small 12.
Definition hex_width (hx : list (@vec Calc)) : BinNums.Z := @nsub Calc (@vx Calc (nth 3 hx vzero)) (@vx Calc (nth 0 hx vzero)).
Definition hex_run (raw rounded : res (list (list (@vec Calc)))) : bool := match raw, rounded with
  | Ok hs, Ok hr => (length hs =? 10)%nat && existsb (fun hx => hex_width hx <? dq 20 1) hs && existsb (fun hx => dq 239 10 <? hex_width hx) hs && (length hr =? length hs)%nat
  | _, _ => false end.
Example C73_nonvacuous : hex_run (@hexRaw Calc hex_small 20 border_small) (@hexGrid2D Calc q_mid hex_small 20 border_small) = true.
Proof. vm_cast_no_check (eq_refl true). Qed.
Example C74_nonvacuous : (length hex_places =? 20)%nat && forallb (fun c => clear_ofb border_small (@hexagonAt Calc hex_small (fst c) (snd c))) hex_places = true.
Proof. vm_cast_no_check (eq_refl true). Qed.
