(** The grooved outline is drawn whenever its circles cross. *)
From Coq Require Import Reals Lra Psatz ZArith List Bool Arith Lia.
From Verif Require Import Num GeoModel EdgeModel GeoSpec GeoMat GeoRigid GeoPlane GeoCirc ArcModel ArcSpec ArcProof ArcCorner ArcShape MeshModel BossSpec BossProof PartProof KnobModel KnobSpec KnobGroove KnobTurn KnobOutline KnobShaft.
Import ListNotations.
Open Scope R_scope.

Lemma psqrt_some (x : R) : 0 <= x -> @psqrt Rnum x = Ok (sqrt x).
Proof. intros H. unfold psqrt. destruct (nltb (Num := Rnum) x (nZ 0)) eqn:C; [change (Rltb x 0 = true) in C; apply Rltb_true in C; lra|reflexivity]. Qed.
Lemma crossing_some (a b g : R) : eps <= g -> Rabs (a - b) <= g -> g <= a + b -> let m := (a * a - b * b + g * g) / (2 * g) in eps * eps <= a * a - m * m ->
  exists c1 cc : pt, @cintersectCircle2D Rnum (mkCircle vzero a) (mkCircle (P 0 g 0) b) = Ok [c1; cc].
Proof.
  intros G A1 A2 m E. pose proof eps_pos as EP. unfold cintersectCircle2D. cbv zeta. cbn [ccenter cradius].
  match goal with |- context[vmag2D ?e] => assert (EM : vmag2D e = g); [|set (pp := vmag2D e) in *; clearbody pp; subst pp] end.
  { unfold vmag2D. match goal with |- nsqrt ?e = _ => change (sqrt e = g); replace e with (g * g) by (unfold vsub, vxy, vzero, P; cbn; rn; ring) end. apply sqrt_square. lra. }
  assert (C1 : isZero (N := Rnum) g = false) by (apply isZero_false; rewrite Rabs_right; lra). rewrite C1.
  assert (C2 : nltb (Num := Rnum) (nadd (Num := Rnum) a b) g = false) by (change (Rltb (a + b) g = false); apply Rltb_false; lra). rewrite C2.
  assert (C3 : nltb (Num := Rnum) g (nabs (Num := Rnum) (nsub (Num := Rnum) a b)) = false) by (change (Rltb g (Rabs (a - b)) = false); apply Rltb_false; lra). rewrite C3. cbn [orb].
  assert (EV : vsub (vxy (P 0 g 0)) (vxy (@vzero Rnum)) = P 0 g 0) by (apply pt_ext; unfold vsub, vxy, vzero, P, X, Y, Z; cbn; rn; ring). rewrite EV.
  rewrite vnorm_spec by (intros E0; apply (f_equal Y) in E0; change (g = 0) in E0; lra). cbn [bind].
  change (nsub (Num := Rnum) (nmul (Num := Rnum) a a) (nmul (Num := Rnum) b b)) with (a * a - b * b). change (nadd (Num := Rnum) (a * a - b * b) (nmul (Num := Rnum) g g)) with (a * a - b * b + g * g). change (nmul (Num := Rnum) (nZ 2) g) with (2 * g).
  rewrite pdiv_nz by lra. cbn [bind]. change ((a * a - b * b + g * g) / (2 * g)) with m. change (nsub (Num := Rnum) (nmul (Num := Rnum) a a) (nmul (Num := Rnum) m m)) with (a * a - m * m).
  assert (EE : 0 <= eps * eps) by apply Rle_0_sqr. rewrite psqrt_some by lra. cbn [bind].
  assert (C4 : isZero (N := Rnum) (sqrt (a * a - m * m)) = false). { apply isZero_false. rewrite Rabs_right by (apply Rle_ge, sqrt_pos). rewrite <- (sqrt_square eps) by lra. apply sqrt_le_1_alt. exact E. } rewrite C4.
  eexists. eexists. reflexivity.
Qed.
Section Arcs.
Variables h amax : R.
Let q := @mkQuality Rnum h amax.
Lemma arc_total (r s sp : R) (ce : pt) : (r = 0 \/ (eps <= r /\ h <= 2 * r)) -> 0 < h -> 0 < amax -> sp <> 0 -> exists l, @arc2D Rnum q r s sp ce = Ok l.
Proof.
  intros Hr Hh Ha Hs. destruct Hr as [->|(R1 & R2)].
  - unfold arc2D. destruct (nltb (Num := Rnum) (0 : R) (nQ 1 1000000)) eqn:C; [eexists; reflexivity|]. change (Rltb 0 eps = false) in C. apply Rltb_false in C. pose proof eps_pos. lra.
  - destruct (arc_form h amax r s sp ce R1 (conj Hh R2) Ha Hs) as (n & _ & _ & F1 & F2). unfold full_turn in *. destruct (Rle_dec (Rabs (Rabs (turn_limited sp) - 2 * PI)) eps) as [L|L]; eexists; [apply F1; exact L|apply F2; exact L].
Qed.
Lemma arc_total_any (r s sp : R) (ce : pt) : r < eps \/ h <= 2 * r -> 0 < h -> 0 < amax -> sp <> 0 -> exists l, @arc2D Rnum q r s sp ce = Ok l.
Proof.
  intros Hr Hh Ha Hs. destruct (Rlt_dec r eps) as [L|L].
  - unfold arc2D. destruct (nltb (Num := Rnum) (r : R) (nQ 1 1000000)) eqn:C; [eexists; reflexivity|]. change (Rltb r eps = false) in C. apply Rltb_false in C. lra.
  - apply arc_total; try assumption. right. destruct Hr; [contradiction|split; [lra|assumption]].
Qed.
End Arcs.
Section Drawn.
Variables h amax : R.
Let q := @mkQuality Rnum h amax.
Variable c : @knob_cfg Rnum.
Let Rk : R := outerDiameter c / 2.
Let gr : R := grooveDiameter c / 2.
Let ro : R := grooveCornerRadius c.
Let g : R := Rk + gr - grooveInset c.
Let n : nat := Z.to_nat (grooveCount c).
Let m : R := ((Rk - ro) * (Rk - ro) - (gr + ro) * (gr + ro) + g * g) / (2 * g).
Hypothesis Count : (0 < grooveCount c)%Z.
Hypothesis R0 : eps <= Rk.
Hypothesis Gr0 : eps <= gr.
Hypothesis Ro0 : ro = 0 \/ eps <= ro.
Hypothesis Ro1 : ro < Rk.
Hypothesis H0 : 0 < h.
Hypothesis A0 : 0 < amax.
Hypothesis HR : h <= 2 * Rk.
Hypothesis HG : h <= 2 * gr.
Hypothesis HO : ro = 0 \/ h <= 2 * ro.
Hypothesis In0 : 0 <= grooveInset c.
Hypothesis In1 : sqrt (Rk * Rk + gr * gr) < g.
Hypothesis In2 : grooveInset c < outerChamfer c.
Hypothesis Cross : eps * eps <= (Rk - ro) * (Rk - ro) - m * m.
Hypothesis Room : (Rk - ro) * cos (PI / INR n) <> m.
Lemma groove_drawn : exists l, grooveSketch2D q c = Ok l.
Proof.
  pose proof eps_pos as EP. pose proof PI_RGT_0 as PP. assert (RO : 0 <= ro) by (destruct Ro0; lra).
  assert (TG : Rk * Rk + gr * gr < g * g). { assert (Q : 0 <= Rk * Rk + gr * gr) by (apply Rplus_le_le_0_compat; apply Rle_0_sqr). rewrite <- (sqrt_sqrt _ Q). pose proof (sqrt_pos (Rk * Rk + gr * gr)). apply Rmult_le_0_lt_compat; lra. }
  assert (GR : Rk < g). { eapply Rle_lt_trans; [|exact In1]. rewrite <- (sqrt_square Rk) at 1 by lra. apply sqrt_le_1_alt. pose proof (Rle_0_sqr gr) as Q. unfold Rsqr in Q. lra. }
  unfold grooveSketch2D. cbv zeta. change (half (outerDiameter c)) with Rk. change (half (grooveDiameter c)) with gr. change (grooveCornerRadius c) with ro.
  replace (grooveCount c <=? 0)%Z with false by (symmetry; apply Z.leb_gt; exact Count).
  change (nadd (Num := Rnum) (nmul (Num := Rnum) Rk Rk) (nmul (Num := Rnum) gr gr)) with (Rk * Rk + gr * gr). rewrite psqrt_some by (apply Rplus_le_le_0_compat; apply Rle_0_sqr). cbn [bind].
  assert (C1 : nleb (Num := Rnum) (nsub (Num := Rnum) gr (nsub (Num := Rnum) (sqrt (Rk * Rk + gr * gr)) Rk)) (grooveInset c) = false).
  { change (Rleb (gr - (sqrt (Rk * Rk + gr * gr) - Rk)) (grooveInset c) = false). unfold Rleb. destruct (Rle_dec (gr - (sqrt (Rk * Rk + gr * gr) - Rk)) (grooveInset c)) as [L|L]; [|reflexivity]. exfalso. unfold g in In1. lra. } rewrite C1.
  assert (C2 : nleb (Num := Rnum) (outerChamfer c) (grooveInset c) = false). { change (Rleb (outerChamfer c) (grooveInset c) = false). unfold Rleb. destruct (Rle_dec (outerChamfer c) (grooveInset c)) as [L|L]; [|reflexivity]. exfalso. lra. } rewrite C2.
  assert (AB : Rabs ((Rk - ro) - (gr + ro)) <= g).
  { destruct (Rle_dec (Rabs ((Rk - ro) - (gr + ro))) g) as [L|L]; [exact L|]. exfalso. apply Rnot_le_lt in L. assert (P1 : 0 <= Rk - ro) by lra. assert (P2 : 0 <= gr + ro) by lra. assert (P3 : 0 < g) by lra.
    pose proof (no_common (Rk - ro) (gr + ro) g m P1 P2 P3 (or_intror L) eq_refl). pose proof (Rle_0_sqr eps) as Q. unfold Rsqr in Q. lra. }
  assert (AC : g <= (Rk - ro) + (gr + ro)) by (unfold g; lra).
  destruct (crossing_some (Rk - ro) (gr + ro) g ltac:(lra) AB AC Cross) as (c1 & cc & EI).
  match goal with |- exists l, bind ?e _ = _ => replace e with (@Ok (list pt) [c1; cc]) by (symmetry; exact EI) end. cbn [bind nth_error].
  destruct (right_crossing (Rk - ro) (gr + ro) g [c1; cc] cc ltac:(lra) EI eq_refl) as (X2 & XP & YM & ZC). fold m in X2, YM.
  assert (CA : X cc * X cc + Y cc * Y cc = (Rk - ro) * (Rk - ro)) by (rewrite X2, YM; ring).
  pose proof (polar cc (Rk - ro) ltac:(lra) CA) as (_ & PY). pose proof (n0 c Count) as N0. fold n in N0.
  assert (NN : IZR (grooveCount c) = INR n) by (unfold n; rewrite INR_IZR_INZ, Z2Nat.id by lia; reflexivity).
  assert (ro0' : 0 <= ro < Rk) by lra. assert (gr0' : 0 < gr) by lra. assert (g0' : 0 < g) by lra.
  assert (M2 : Y cc * (2 * g) = (Rk - ro) * (Rk - ro) - (gr + ro) * (gr + ro) + g * g) by (rewrite YM; unfold m; field; lra).
  assert (CB : X cc * X cc + (g - Y cc) * (g - Y cc) = (gr + ro) * (gr + ro)). { transitivity (X cc * X cc + Y cc * Y cc - Y cc * (2 * g) + g * g); [ring|]. rewrite CA, M2. ring. }
  pose proof (corner_turn Rk ro gr (grooveInset c) ro0' gr0' TG g0' cc XP CA CB) as CT. fold g in CT. pose proof (gs_range Rk ro gr (grooveInset c) ro0' gr0' TG g0' cc XP CA) as GS. fold g in GS.
  assert (EV1 : vsub (P 0 g 0) cc = P (- X cc) (g - Y cc) 0) by (apply pt_ext; [change (0 - X cc = - X cc); ring|reflexivity|change (0 - Z cc = 0); rewrite ZC; ring]).
  assert (EV2 : vsub cc (P 0 g 0) = P (X cc) (Y cc - g) 0) by (apply pt_ext; [change (X cc - 0 = X cc); ring|reflexivity|change (Z cc - 0 = 0); rewrite ZC; ring]).
  assert (S0 : nsub (Num := Rnum) (ndiv (Num := Rnum) tau (nZ 4)) (half (ndiv (Num := Rnum) tau (nZ (grooveCount c)))) = PI / 2 - PI / INR n).
  { change (2 * PI / 4 - 2 * PI / IZR (grooveCount c) / 2 = PI / 2 - PI / INR n). rewrite NN. field. lra. }
  match goal with |- exists l, bind (arc2D q Rk ?s ?sp ?ce) _ = _ => destruct (arc_total h amax Rk s sp ce (or_intror (conj R0 HR)) H0 A0) as (a1 & E1) end.
  { intros F. apply Room. rewrite <- YM, PY. f_equal. replace (vangle2D cc) with (PI / 2 - PI / INR n); [symmetry; apply sin_shift|]. rewrite <- S0. symmetry. apply Rminus_diag_uniq. rewrite <- F. rn. ring. }
  fold q in E1. rewrite E1. cbn [bind].
  match goal with |- exists l, bind (arc2D q ro ?s ?sp ?ce) _ = _ => destruct (arc_total h amax ro s sp ce) as (a2 & E2) end; [destruct Ro0 as [F|F]; [left; exact F|]; destruct HO as [F'|F']; [left; exact F'|right; split; assumption]|exact H0|exact A0| |].
  { intros F. assert (F2 : vangle2D (vsub (P 0 g 0) cc) - vangle2D cc = 0) by exact F. rewrite EV1 in F2. lra. }
  fold q in E2. rewrite E2. cbn [bind].
  match goal with |- exists l, bind (arc2D q gr ?s ?sp ?ce) _ = _ => destruct (arc_total h amax gr s sp ce (or_intror (conj Gr0 HG)) H0 A0) as (a3 & E3) end.
  { intros F. assert (F2 : - (2 * PI / 4 + vangle2D (vsub cc (P 0 g 0))) = 0) by exact F. rewrite EV2 in F2. lra. }
  fold q in E3. rewrite E3. cbn [bind]. eexists. reflexivity.
Qed.
End Drawn.

(** ** the socket is drawn whenever the hinge of its prong is larger than the chord height *)
Section ShaftDrawn.
Variables h amax : R.
Let q := @mkQuality Rnum h amax.
Variable c : @knob_cfg Rnum.
Let Rs : R := shaftDiameter c / 2.
Let r : R := prongDiameter c / 2.
Let fy : R := shaftAcrossFlat c - Rs.
Let al : R := PI / 12.
Let fx : R := sqrt (Rs * Rs - fy * fy).
Let ux : R := fx / Rs.
Let uy : R := fy / Rs.
(* the distance of the hinge from the axis *)
Let s : R := (Rs + r + sin al * (fx / 3) - cos al * (fy + r)) / (1 + (sin al * ux - cos al * uy)).
Hypothesis H0 : 0 < h.
Hypothesis A0 : 0 < amax.
Hypothesis Rs0 : eps <= Rs.
Hypothesis r0 : 3 * eps <= r.
Hypothesis Fy0 : 0 <= fy.
Hypothesis Fy1 : fy + 2 * r <= Rs.
Hypothesis Fy2 : fy <= Rs * cos al.
Hypothesis Slant : 4 * eps <= ux * ux.
Hypothesis HRs : h <= 2 * Rs.
Hypothesis Hr : h <= 2 * r.
Hypothesis Hn : h <= 2 * (fx / 3 - r / 3).
Hypothesis Hh : h <= 2 * (Rs - s).
Lemma shaft_drawn : exists sk, shaftSketch2D q c = Ok sk.
Proof.
  pose proof eps_pos as EP. pose proof cos_al as CA. pose proof sin_al as SA. pose proof al_range as AL. pose proof PI_RGT_0 as PP. pose proof (sin2_cos2 al) as SC. unfold Rsqr in SC. fold al in CA, SA, AL.
  assert (F0 : fy * fy < Rs * Rs). { assert (fy < Rs) by (assert (Rs * cos al < Rs * 1) by (apply Rmult_lt_compat_l; lra); lra). apply Rmult_le_0_lt_compat; lra. }
  assert (FX : fx * fx = Rs * Rs - fy * fy) by (apply sqrt_sqrt; lra). assert (FXP : 0 < fx) by (apply sqrt_lt_R0; lra).
  assert (UU : ux * ux + uy * uy = 1) by (unfold ux, uy; transitivity ((fx * fx + fy * fy) / (Rs * Rs)); [field; lra|rewrite FX; field; lra]).
  assert (UX : 0 < ux) by (unfold ux; apply Rdiv_lt_0_compat; lra). assert (UY : 0 <= uy) by (unfold uy, Rdiv; apply Rmult_le_pos; [exact Fy0|left; apply Rinv_0_lt_compat; lra]).
  assert (FU : fx = Rs * ux) by (unfold ux; field; lra). assert (FV : fy = Rs * uy) by (unfold uy; field; lra).
  assert (UC : uy <= cos al) by (apply (Rmult_le_reg_l Rs); [lra|]; rewrite <- FV; exact Fy2).
  assert (R2 : 2 * r <= fx). { apply Rsqr_incr_0_var; [|lra]. unfold Rsqr. assert ((fy + 2 * r) * (fy + 2 * r) <= Rs * Rs) by (apply Rmult_le_compat; lra). assert (0 <= fy * (2 * r)) by (apply Rmult_le_pos; lra). lra. }
  assert (KK : eps <= (1 + (sin al * ux - cos al * uy)) / 2).
  { assert (0 < sin al * ux) by (apply Rmult_lt_0_compat; lra). assert (cos al * uy <= cos al * cos al) by (apply Rmult_le_compat_l; lra). assert (SS : 1 / 25 <= sin al * sin al); [|unfold eps; lra].
    assert (cos al * cos al <= 96 / 100); [|lra]. pose proof (cos_2a_cos al) as C2. replace (2 * al) with (PI / 6) in C2 by (unfold al; field). rewrite cos_PI6 in C2. assert (sqrt 3 < 18 / 10) by (rewrite <- (sqrt_square (18 / 10)) by lra; apply sqrt_lt_1_alt; lra). lra. }
  unfold shaftSketch2D. cbv zeta. change (half (shaftDiameter c)) with Rs. change (half (prongDiameter c)) with r. change (nsub (Num := Rnum) (shaftAcrossFlat c) Rs) with fy.
  assert (EAL : @radians15 Rnum = al) by (change (15 * (PI / 180) = al); unfold al; field). rewrite !EAL.
  change (nsub (Num := Rnum) (nmul (Num := Rnum) Rs Rs) (nmul (Num := Rnum) fy fy)) with (Rs * Rs - fy * fy). rewrite psqrt_some by lra. cbn [bind]. fold fx.
  assert (EPX : nmul (Num := Rnum) fx (ndiv (Num := Rnum) (nZ 1) (nZ 3)) = fx / 3) by (change (fx * (1 / 3) = fx / 3); field). rewrite !EPX.
  assert (ENR : nsub (Num := Rnum) (fx / 3) (nmul (Num := Rnum) r (nsub (Num := Rnum) (nZ 1) (ndiv (Num := Rnum) (nZ 2) (nZ 3)))) = fx / 3 - r / 3) by (change (fx / 3 - r * (1 - 2 / 3) = fx / 3 - r / 3); field). rewrite !ENR.
  set (nr := fx / 3 - r / 3) in *. change (nsub (Num := Rnum) (nmul (Num := Rnum) (nadd (Num := Rnum) r nr) (nadd (Num := Rnum) r nr)) (nmul (Num := Rnum) (fx / 3) (fx / 3))) with ((r + nr) * (r + nr) - fx / 3 * (fx / 3)).
  rewrite psqrt_some by (assert (fx / 3 * (fx / 3) <= (r + nr) * (r + nr)) by (apply Rmult_le_compat; unfold nr; lra); lra). cbn [bind]. set (no := sqrt ((r + nr) * (r + nr) - fx / 3 * (fx / 3))) in *.
  set (u := P ux uy 0). set (w := P (- uy) ux 0).
  assert (FD : newLine vzero (V (fx : R) (fy : R) (0 : R)) = Ok (mkLine vzero u)).
  { unfold newLine. assert (L : len (P fx fy 0) = Rs) by (unfold len, inner; change (sqrt (fx * fx + fy * fy + 0 * 0) = Rs); replace (fx * fx + fy * fy + 0 * 0) with (Rs * Rs) by (rewrite FX; ring); apply sqrt_square; lra).
    change (@V Rnum fx fy 0) with (P fx fy 0). rewrite vnorm_spec by (intros F; apply (f_equal X) in F; change (fx = 0) in F; lra). cbn [bind]. f_equal. f_equal. rewrite L. apply pt_ext; [change (/ Rs * fx = fx / Rs); field; lra|change (/ Rs * fy = fy / Rs); field; lra|change (/ Rs * 0 = 0); ring]. }
  match goal with |- exists sk, bind ?e _ = _ => replace e with (@Ok (@line Rnum) (mkLine vzero u)) by (symmetry; exact FD) end. cbn [bind].
  assert (WU : unit_vec u) by (unfold unit_vec; change (ux * ux + uy * uy + 0 * 0 = 1); lra).
  assert (WW : unit_vec w) by (unfold unit_vec; change (- uy * - uy + ux * ux + 0 * 0 = 1); lra).
  set (e := P (cos al) (sin al) 0). set (T := P (fx / 3 + r * sin al) (fy + r - r * cos al) 0).
  assert (WE : unit_vec e) by (unfold unit_vec; change (cos al * cos al + sin al * sin al + 0 * 0 = 1); lra).
  match goal with |- exists sk, bind ?e0 _ = _ => assert (EX : e0 = @Ok (@line Rnum) (mkLine (P fx fy 0) w)) end.
  { unfold newLine. change (vortho2D (ldir (mkLine vzero u))) with w. rewrite (vnorm_of_unit w WW). reflexivity. } rewrite EX. clear EX. cbn [bind].
  match goal with |- exists sk, bind ?e0 _ = _ => assert (EX : e0 = @Ok (@line Rnum) (mkLine T e)) end.
  { unfold newLine. match goal with |- bind (vnorm ?v) _ = _ => change (bind (vnorm e) (fun d : pt => Ok (@mkLine Rnum (vsub (V (fx / 3 : R) (fy + r : R) (0 : R)) (vscale (vortho2D e) r)) d)) = Ok (mkLine T e)) end. rewrite (vnorm_of_unit e WE). cbn [bind]. f_equal. f_equal.
    unfold T. apply pt_ext; [change (fx / 3 - - sin al * r = fx / 3 + r * sin al); ring|change (fy + r - cos al * r = fy + r - r * cos al); ring|change (0 - 0 * r = 0); ring]. } rewrite EX. clear EX. cbn [bind].
  assert (PE : Rabs (1 - inner w e * inner w e) >= eps).
  { assert (IE : 1 - inner w e * inner w e = (ux * cos al + uy * sin al) * (ux * cos al + uy * sin al)).
    { change (1 - (- uy * cos al + ux * sin al + 0 * 0) * (- uy * cos al + ux * sin al + 0 * 0) = (ux * cos al + uy * sin al) * (ux * cos al + uy * sin al)). transitivity ((ux * ux + uy * uy) * (sin al * sin al + cos al * cos al) - (- uy * cos al + ux * sin al + 0 * 0) * (- uy * cos al + ux * sin al + 0 * 0)); [rewrite UU, SC; ring|ring]. }
    rewrite IE. rewrite Rabs_right by (apply Rle_ge, Rle_0_sqr). apply Rle_ge. assert (0 <= uy * sin al) by (apply Rmult_le_pos; lra). assert (ux * (1 / 2) <= ux * cos al) by (apply Rmult_le_compat_l; lra).
    assert (ux * (1 / 2) * (ux * (1 / 2)) <= (ux * cos al + uy * sin al) * (ux * cos al + uy * sin al)) by (apply Rmult_le_compat; lra). lra. }
  destruct (lintersect (@mkLine Rnum (P fx fy 0) w) (mkLine T e)) as [bp|er] eqn:EBP; [|exfalso; apply Rge_not_lt in PE; apply PE; apply (lintersect_err (@mkLine Rnum (P fx fy 0) w) (mkLine T e) WW WE); exists er; exact EBP]. cbn [bind].
  destruct (lintersect_flat (mkLine (P fx fy 0) w) (mkLine T e) bp WW WE eq_refl eq_refl eq_refl eq_refl EBP) as ((k1 & B1) & (k2 & B2)). cbn [lpos ldir] in B1, B2. cbn [ldir].
  set (d := vadd w e). assert (DN : d <> origin) by (intros F; apply (f_equal Y) in F; change (ux + sin al = 0) in F; lra).
  match goal with |- exists sk, bind ?e0 _ = _ => assert (EX : e0 = @Ok (@line Rnum) (mkLine bp (scaled (/ len d) d))) end.
  { unfold newLine. change (vadd w e) with d. rewrite (vnorm_spec d DN). reflexivity. } rewrite EX. clear EX. cbn [bind].
  pose proof (unit_scaled d DN) as WD. set (lam := / len d) in *.
  assert (ZB : Z bp = 0) by (rewrite B1; change (0 + k1 * 0 = 0); ring).
  assert (ZH : Z (scaled lam d) = 0) by (change (lam * (0 + 0) = 0); ring).
  assert (PH : Rabs (1 - inner u (scaled lam d) * inner u (scaled lam d)) >= eps).
  { unfold unit_vec in WD. assert (WD' : lam * lam * (2 * (1 + (sin al * ux - cos al * uy))) = 1).
    { eapply eq_trans; [|exact WD]. change (lam * lam * (2 * (1 + (sin al * ux - cos al * uy))) = lam * (- uy + cos al) * (lam * (- uy + cos al)) + lam * (ux + sin al) * (lam * (ux + sin al)) + lam * (0 + 0) * (lam * (0 + 0))).
      transitivity (lam * lam * ((ux * ux + uy * uy) + (sin al * sin al + cos al * cos al) + 2 * (sin al * ux - cos al * uy))); [rewrite UU, SC; ring|ring]. }
    set (k := sin al * ux - cos al * uy) in *. assert (IE : 1 - inner u (scaled lam d) * inner u (scaled lam d) = (1 + k) / 2).
    { change (1 - (ux * (lam * (- uy + cos al)) + uy * (lam * (ux + sin al)) + 0 * (lam * (0 + 0))) * (ux * (lam * (- uy + cos al)) + uy * (lam * (ux + sin al)) + 0 * (lam * (0 + 0))) = (1 + k) / 2).
      transitivity (1 - lam * lam * (1 - k * k)); [|apply (Rmult_eq_reg_r (2 * (1 + k))); [|lra]; transitivity (2 * (1 + k) - lam * lam * (2 * (1 + k)) * (1 - k * k)); [ring|rewrite WD'; field]].
      f_equal. transitivity (lam * lam * ((ux * cos al + uy * sin al) * (ux * cos al + uy * sin al))); [ring|]. f_equal. unfold k. transitivity ((ux * ux + uy * uy) * (sin al * sin al + cos al * cos al) - (sin al * ux - cos al * uy) * (sin al * ux - cos al * uy)); [ring|rewrite UU, SC; ring]. }
    rewrite IE. rewrite Rabs_right; lra. }
  destruct (lintersect (@mkLine Rnum vzero u) (mkLine bp (scaled lam d))) as [hc|er] eqn:EHC; [|exfalso; apply Rge_not_lt in PH; apply PH; apply (lintersect_err (@mkLine Rnum vzero u) (mkLine bp (scaled lam d)) WU WD); exists er; exact EHC]. cbn [bind].
  destruct (lintersect_flat (mkLine vzero u) (mkLine bp (scaled lam d)) hc WU WD eq_refl ZB eq_refl ZH EHC) as ((s' & S1) & (k3 & S2)). cbn [lpos ldir] in S1, S2.
  assert (HC : hc = P (s' * ux) (s' * uy) 0) by (rewrite S1; apply pt_ext; [change (0 + s' * ux = s' * ux); ring|change (0 + s' * uy = s' * uy); ring|change (0 + s' * 0 = 0); ring]).
  assert (BX : X bp = fx + k1 * - uy) by (rewrite B1; reflexivity). assert (BY : Y bp = fy + k1 * ux) by (rewrite B1; reflexivity).
  assert (BX' : X bp = fx / 3 + r * sin al + k2 * cos al) by (rewrite B2; reflexivity). assert (BY' : Y bp = fy + r - r * cos al + k2 * sin al) by (rewrite B2; reflexivity).
  set (k := k3 * lam). assert (HX : s' * ux = X bp + k * (- uy + cos al)).
  { transitivity (X hc); [rewrite HC; reflexivity|]. rewrite S2. change (X bp + k3 * (lam * (- uy + cos al)) = X bp + k * (- uy + cos al)). unfold k. ring. }
  assert (HY : s' * uy = Y bp + k * (ux + sin al)).
  { transitivity (Y hc); [rewrite HC; reflexivity|]. rewrite S2. change (Y bp + k3 * (lam * (ux + sin al)) = Y bp + k * (ux + sin al)). unfold k. ring. }
  assert (SK : s' - Rs = k * (ux * cos al + uy * sin al)).
  { assert (M1 : ux * (s' * ux) = ux * (Rs * ux + k1 * - uy + k * (- uy + cos al))) by (rewrite HX, BX, <- FU; reflexivity).
    assert (M2 : uy * (s' * uy) = uy * (Rs * uy + k1 * ux + k * (ux + sin al))) by (rewrite HY, BY, <- FV; reflexivity).
    assert (M3 : s' * (ux * ux + uy * uy) = s') by (rewrite UU; ring). assert (M4 : Rs * (ux * ux + uy * uy) = Rs) by (rewrite UU; ring). lra. }
  assert (NK : - sin al * (s' * ux - (fx / 3 + r * sin al)) + cos al * (s' * uy - (fy + r - r * cos al)) = k * (ux * cos al + uy * sin al)).
  { rewrite HX, HY, BX', BY'. ring. }
  assert (E : s' * (1 + (sin al * ux - cos al * uy)) = Rs + r + sin al * (fx / 3) - cos al * (fy + r)) by (replace r with (r * (sin al * sin al + cos al * cos al)) at 1 by (rewrite SC; ring); lra).
  assert (ES : s' = s) by (unfold s; rewrite <- E; field; lra). clear E NK SK HX HY BX BY BX' BY' S1 S2 B1 B2. 
  assert (SP : 0 < s). { unfold s. apply Rdiv_lt_0_compat; [|lra]. assert (0 <= sin al * (fx / 3)) by (apply Rmult_le_pos; lra). assert (cos al * (fy + r) <= 1 * (fy + r)) by (apply Rmult_le_compat_r; lra). lra. }
  rewrite ES in HC. subst hc. 
  assert (AR : - (PI / 2) < vangle2D (P (s * ux) (s * uy) 0) < PI / 2) by (apply atan2_right; change (0 < s * ux); apply Rmult_lt_0_compat; lra).
  set (aH := vangle2D (P (s * ux) (s * uy) 0)) in *.
  assert (HR : vmag2D (vsub (P (s * ux) (s * uy) 0) (V (fx : R) (fy : R) (0 : R))) = Rs - s).
  { unfold vmag2D. change (sqrt ((s * ux - fx) * (s * ux - fx) + (s * uy - fy) * (s * uy - fy)) = Rs - s). rewrite FU, FV.
    replace ((s * ux - Rs * ux) * (s * ux - Rs * ux) + (s * uy - Rs * uy) * (s * uy - Rs * uy)) with ((Rs - s)² * (ux * ux + uy * uy)) by (unfold Rsqr; ring). rewrite UU, Rmult_1_r. apply sqrt_Rsqr. lra. }
  match goal with |- exists l, bind (arc2D q Rs ?s0 ?sp ?ce) _ = _ => destruct (arc_total_any h amax Rs s0 sp ce) as (a1 & E1); [right; exact HRs|exact H0|exact A0| |] end.
  { change (PI / 2 + aH <> 0). lra. } fold q in E1. rewrite E1. cbn [bind].
  match goal with |- exists l, bind (arc2D q ?hr ?s0 ?sp ?ce) _ = _ => assert (EH : hr = Rs - s) by exact HR; destruct (arc_total_any h amax hr s0 sp ce) as (a2 & E2); [right; rewrite EH; exact Hh|exact H0|exact A0| |] end.
  { change (PI / 2 + al - aH <> 0). lra. } fold q in E2. rewrite E2. cbn [bind].
  assert (NS : - (PI / 2) < vangle2D (vsub (V (fx / 3 : R) (fy + r : R) (0 : R)) (V (0 : R) (fy + r + no : R) (0 : R))) < PI / 2) by (apply atan2_right; change (0 < fx / 3 - 0); lra).
  set (ns := vangle2D (vsub (@V Rnum (fx / 3) (fy + r) (0 : R)) (@V Rnum (0 : R) (fy + r + no) (0 : R)))) in *.
  match goal with |- exists l, bind (arc2D q r ?s0 ?sp ?ce) _ = _ => destruct (arc_total_any h amax r s0 sp ce) as (a3 & E3); [right; exact Hr|exact H0|exact A0| |] end.
  { change (PI + ns - (PI / 2 * 3 + al) <> 0). lra. } fold q in E3. rewrite E3. cbn [bind].
  match goal with |- exists l, bind (arc2D q nr ?s0 ?sp ?ce) _ = _ => destruct (arc_total_any h amax nr s0 sp ce) as (a4 & E4); [right; exact Hn|exact H0|exact A0| |] end.
  { change (PI / 2 - ns <> 0). lra. } fold q in E4. rewrite E4. cbn [bind]. eexists. reflexivity.
Qed.
End ShaftDrawn.
