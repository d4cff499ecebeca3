(** The notch of the palm rest. *)
From Coq Require Import Reals Lra Psatz ZArith List Bool Arith Lia.
From Verif Require Import Num GeoModel EdgeModel GeoSpec GeoMat GeoPlane GeoCirc ArcModel ArcSpec ArcProof ArcCorner ArcShape PartProof CableProof MeshModel LayoutModel BossModel PlanModel PlanSpec2 WallProof BracketModel
  BumperModel PalmModel PalmSpec PalmShape PalmBox.
Import ListNotations.
Open Scope R_scope.

Section Notch.
Variables (q : @quality Rnum) (c : @palm_cfg Rnum) (thumb pinky : pt).
Let o : R := @ndiv Rnum (vmag (vsub pinky thumb)) (nZ 2).
Hypothesis SP : sane_palm c o.
Let a : R := pa_taperAngle c.
Let ca : R := cos a.
Let sa : R := sin a.
Let m : R := pa_bodyMargin c.
Let dp : R := pa_depth c.
Let fh : R := pa_floorHeight c.
Let ff : R := pa_floorFillet c.
Let fc : R := pa_floorContact c.
Let hr : R := pa_hitchRadius c.
Let hw (y : R) : R := half_width c o y.
Let CA : 0 < ca := ca_pos c thumb pinky SP.
Let SA : 0 <= sa := sa_nn c thumb pinky SP.
Let U1 : ca * ca + sa * sa = 1 := unit_a c.

Definition xline (y z : R) : @line Rnum := mkLine (P 0 y z) (P 1 0 0).
Lemma xline_wf y z : wf_line (xline y z). Proof. exact unit_x. Qed.
Lemma on_xline y z v : on_line (xline y z) v -> Y v = y /\ Z v = z.
Proof. intros (k & ->). unfold xline, plus, scaled, P, X, Y, Z. cbn [lpos ldir vx vy vz]. split; ring. Qed.
(* the line at distance d inside the right side, at height z *)
Definition sline (d z : R) : @line Rnum := mkLine (P (o - d * ca) (d * sa) z) (P sa ca 0).
Definition slineb (d z : R) : @line Rnum := mkLine (P (o - d * ca) (d * sa) z) (P (- sa) (- ca) 0).
Lemma sline_wf d z : wf_line (sline d z). Proof. unfold wf_line, unit_vec, sline, inner, P, X, Y, Z. cbn [ldir vx vy vz]. lra. Qed.
Definition side_pt (d y z : R) : pt := P ((hw y - d) / ca) y z.
Lemma on_sline d y z : on_line (sline d z) (side_pt d y z).
Proof.
  exists ((y - d * sa) / ca). unfold sline, side_pt, plus, scaled, P, X, Y, Z, hw, half_width. cbn [lpos ldir vx vy vz]. fold a ca sa. f_equal; [|field; lra|ring].
  apply (Rmult_eq_reg_r ca); [|lra]. replace ((o * ca + y * sa - d) / ca * ca) with (o * ca + y * sa - d) by (field; lra).
  replace ((o - d * ca + (y - d * sa) / ca * sa) * ca) with (o * ca - d * (ca * ca + sa * sa) + y * sa) by (field; lra). rewrite U1. ring.
Qed.
Lemma meet_side d y z v : lintersect (xline y z) (sline d z) = Ok v -> v = side_pt d y z.
Proof.
  intros H. apply (lintersect_common _ _ _ (side_pt d y z) (xline_wf y z) (sline_wf d z) H); [|apply on_sline].
  exists ((hw y - d) / ca). unfold xline, side_pt, plus, scaled, P, X, Y, Z. cbn [lpos ldir vx vy vz]. f_equal; ring.
Qed.
Lemma side_pt_x d y z : X (side_pt d y z) * ca = hw y - d. Proof. unfold side_pt, P, X. cbn [vx]. field. lra. Qed.

(* the lines of the two fillets on the floor *)
Lemma fillets_made r up lf lb : roof_facts c thumb pinky r up -> filletLines q c r = Ok (lf, lb) ->
  (forall l, In l lf -> exists y z, l = xline y z /\ - (m + dp) <= y <= - (m + dp) + ff /\ - fh <= z <= - fh + ff) /\
  (forall l, In l lb -> exists y z, l = xline y z /\ - m - ff <= y <= - m /\ - fh <= z <= - fh + ff) /\
  (lb <> [] -> hd (xline 0 0) lb = xline (- m - ff) (- fh)).
Proof.
  intros RF H. unfold filletLines in H. cbv zeta in H. apply bind_ok in H. destruct H as (af & E1 & H). apply bind_ok in H. destruct H as (l1 & E2 & H).
  apply bind_ok in H. destruct H as (ab & E3 & H). apply bind_ok in H. destruct H as (l2 & E4 & H). apply Ok_inj in H. apply pair_inj in H. destruct H as [-> ->].
  pose proof PI_RGT_0 as PP. pose proof eps_pos as EP. pose proof SP as SP0; destruct SP0 as [S1 S2 S3 S4 S5 S6 S7 S8 S9 S10]. assert (FF : 0 <= ff) by (unfold ff; lra).
  change (@arc2D Rnum q (pa_floorFillet c) (2 * PI / 2) (2 * PI / 4) vzero = Ok af) in E1. change (@arc2D Rnum q (pa_floorFillet c) (2 * PI * (3 / 4)) (2 * PI / 4) vzero = Ok ab) in E3.
  assert (HA : Rabs (2 * PI / 4) <= PI) by (rewrite Rabs_right; lra).
  pose proof (arc_between q _ _ _ vzero af S6 HA E1 eq_refl) as A1. pose proof (arc_between q _ _ _ vzero ab S6 HA E3 eq_refl) as A2.
  assert (LN : forall (ce p : pt) l, newLine (vadd (@V Rnum (nZ 0) (vx p) (vy p)) ce) (V (nZ 1) (nZ 0) (nZ 0)) = Ok l -> X ce = 0 -> l = xline (X p + Y ce) (Y p + Z ce)).
  { intros ce p l HL HX. apply (newLine_unit _ _ _ unit_x) in HL. rewrite HL. unfold xline. f_equal. destruct p as [p1 p2 p3], ce as [c1 c2 c3]. unfold vadd, P, X, Y, Z in *. cbn [vx vy vz] in *. rn. f_equal; lra. }
  assert (YF := rf_f _ _ _ _ _ RF). assert (YB := rf_b _ _ _ _ _ RF). fold m dp in YF. fold m in YB.
  assert (CF : forall t, PI <= t <= 3 * (PI / 2) -> cos t <= 0 /\ sin t <= 0).
  { intros t T. split; [apply cos_le_0; lra|apply sin_le_0; lra]. }
  assert (CB : forall t, 3 * (PI / 2) <= t <= 2 * PI -> 0 <= cos t /\ sin t <= 0).
  { intros t T. split; [apply cos_ge_0_3PI2; lra|apply sin_le_0; lra]. }
  split; [|split].
  - intros l I. apply mapM_ok in E2. destruct (forall2_in_r _ _ _ l E2 I) as (p & Ip & HL). apply LN in HL; [|reflexivity]. destruct (A1 p Ip) as (t & BT & ->). change (X vzero) with 0 in HL. change (Y vzero) with 0 in HL.
    eexists. eexists. split; [exact HL|]. destruct (CF t) as [C1 C2]; [destruct BT; lra|]. pose proof (COS_bound t). pose proof (SIN_bound t). unfold Y in YF. unfold Y, X, Z, P. cbn [vx vy vz]. rn. rewrite YF. fold ff. fold fh. nra.
  - intros l I. apply mapM_ok in E4. destruct (forall2_in_r _ _ _ l E4 I) as (p & Ip & HL). apply LN in HL; [|reflexivity]. destruct (A2 p Ip) as (t & BT & ->). change (X vzero) with 0 in HL. change (Y vzero) with 0 in HL.
    eexists. eexists. split; [exact HL|]. destruct (CB t) as [C1 C2]; [destruct BT; lra|]. pose proof (COS_bound t). pose proof (SIN_bound t). unfold Y in YB. unfold Y, X, Z, P. cbn [vx vy vz]. rn. rewrite YB. fold ff. fold fh. nra.
  - intros NE. apply mapM_ok in E4. destruct E4 as [|p l ab' lb' HL F]; [contradiction|]. cbn [hd]. apply LN in HL; [|reflexivity].
    destruct (arc_ends q _ _ _ vzero (p :: ab') S6 HA E3 eq_refl ltac:(discriminate)) as [HD _]. cbn [hd] in HD. rewrite HL, HD. change (X vzero) with 0. change (Y vzero) with 0.
    replace (2 * PI * (3 / 4)) with (3 * (PI / 2)) by field. rewrite cos_3PI2, sin_3PI2. unfold Y in YB. unfold Y, X, Z, P. cbn [vx vy vz]. rn. rewrite YB. f_equal; unfold ff, fh; ring.
Qed.

Let yf : R := - (m + dp) + fc + fh.
Let RBT : pt := side_pt (fc + fh) (- m) 0.
Let RFT : pt := side_pt (fc + fh) yf 0.
Let RBG : pt := side_pt fc (- m) (- fh).
Let RFG : pt := side_pt fc (yf - fh) (- fh).
Definition corner_pt (t : R) : pt := P (X RFT - hr * (1 - sa) / ca + hr * cos t) (Y RFT + hr - hr * sin t) 0.

Lemma legs : yf < - m -> dirx RBT RFT = sa /\ diry RBT RFT = ca.
Proof.
  intros Q. assert (L : len2 (minus RBT RFT) = (- m - yf) / ca).
  { unfold len2. apply sqrt_lem_1.
    - apply Rplus_le_le_0_compat; apply Rle_0_sqr.
    - apply Rmult_le_pos; [lra|left; apply Rinv_0_lt_compat, CA].
    - unfold RBT, RFT, side_pt, minus, P, X, Y, hw, half_width. cbn [vx vy]. fold a ca sa.
      assert (K : (- m - yf) * (- m - yf) * (ca * ca + sa * sa) = (- m - yf) * (- m - yf)) by (rewrite U1; ring).
      apply (Rmult_eq_reg_r (ca * ca)); [|nra].
      replace ((- m - yf) / ca * ((- m - yf) / ca) * (ca * ca)) with ((- m - yf) * (- m - yf)) by (field; lra). rewrite <- K at 1. field. lra. }
  unfold dirx, diry. rewrite L. unfold RBT, RFT, side_pt, P, X, Y, hw, half_width. cbn [vx vy]. fold a ca sa. split; field; split; lra.
Qed.
Lemma corner_made l : yf < - m -> 0 < X RFT -> cornerArc2D q hr RBT RFT (vyz RFT) = Ok l -> forall p, In p l -> exists t, a <= t <= PI / 2 /\ p = corner_pt t.
Proof.
  intros Q XP H p I. pose proof PI_RGT_0 as PP. pose proof SP as SP0; destruct SP0 as [S1 S2 S3 S4 S5 S6 S7 S8 S9 S10]. fold a in S3. destruct (legs Q) as [AX AY].
  assert (CX : dirx (vyz RFT) RFT = -1 /\ diry (vyz RFT) RFT = 0).
  { assert (L : len2 (minus (vyz RFT) RFT) = X RFT). { unfold len2. apply sqrt_lem_1; [apply Rplus_le_le_0_compat; apply Rle_0_sqr|lra|]. unfold vyz, minus, P, X, Y. cbn [vx vy vz]. rn. ring. }
    unfold dirx, diry. rewrite L. split; [unfold vyz, X at 1; cbn [vx]; rn; field; lra|]. unfold vyz, Y at 1. cbn [vy]. unfold Y. unfold Rdiv. replace (vy RFT - vy RFT) with 0 by (rn; ring). ring. }
  destruct CX as [CX CY]. destruct q as [h amax] eqn:EQ.
  assert (N1 : X RBT <> X RFT \/ Y RBT <> Y RFT) by (right; change (- m <> yf); lra). assert (N2 : X (vyz RFT) <> X RFT \/ Y (vyz RFT) <> Y RFT) by (left; change (0 <> X RFT); lra).
  assert (NS : dirx (vyz RFT) RFT * diry RBT RFT - diry (vyz RFT) RFT * dirx RBT RFT <> 0) by (rewrite CX, CY, AX, AY; lra).
  destruct (corner_reduces h amax hr RBT RFT (vyz RFT) (proj1 S9) N1 N2 NS) as (st & sp & C1 & C2 & C3 & E). rewrite E in H. clear E.
  rewrite CX, CY, AX, AY in *. destruct (Rlt_dec 0 (-1 * ca - 0 * sa)) as [B|_]; [lra|].
  assert (AC : acos (sa * -1 + ca * 0) = PI / 2 + a).
  { replace (sa * -1 + ca * 0) with (cos (PI / 2 + a)) by (rewrite cos_plus, cos_PI2, sin_PI2; unfold sa; ring). apply acos_cos. lra. }
  rewrite AC in C3. assert (SPN : sp = - (PI / 2 - a)) by (rewrite C3; field). assert (HS : Rabs sp <= PI) by (rewrite SPN, Rabs_Ropp, Rabs_right; lra).
  destruct (arc_between _ hr st sp _ l (or_intror (proj1 S9)) HS H eq_refl p I) as (t & BT & ->).
  assert (RS : Rabs (-1 * ca - 0 * sa) = ca) by (rewrite Rabs_left; lra). rewrite RS.
  exists (a + (st - t)). split; [destruct BT as [BT|BT]; lra|].
  assert (T1 : cos t = cos (a + (st - t))). { replace t with (st - (st - t)) at 1 by ring. rewrite cos_minus, cos_plus, C1, C2. fold ca sa. ring. }
  assert (T2 : sin t = - sin (a + (st - t))). { replace t with (st - (st - t)) at 1 by ring. rewrite sin_minus, sin_plus, C1, C2. fold ca sa. ring. }
  rewrite T1, T2. unfold corner_pt. change (X (P ?x _ _)) with x. change (Y (P _ ?y _)) with y. unfold P. f_equal; change (@vx Rnum RFT) with (X RFT); field; lra.
Qed.

Definition kappa : R := sqrt 2 - 1.
Lemma kappa_range : 0 < kappa <= 1.
Proof. unfold kappa. pose proof (sqrt_sqrt 2 ltac:(lra)) as Q. pose proof (sqrt_pos 2). split; nra. Qed.
(* a point of the lower and of the upper edge of the notch, right half *)
Definition lower_pt (w : pt) : Prop := w = side_pt fc (- m - ff) (- fh) \/ exists t, a <= t <= PI / 2 /\ w = plus RFG (scaled (1 + fh / hr) (minus (corner_pt t) RFT)).
Definition upper_pt (w : pt) : Prop := w = side_pt (fc + fh) (- m - ff) 0 \/ exists t, a <= t <= PI / 2 /\ w = corner_pt t.
Definition either (Q : pt -> Prop) (v : pt) : Prop := Q v \/ exists w, Q w /\ v = vmirX w.
Definition fillet_at (d y z : R) (v : pt) : Prop := v = side_pt d y z.
Record notch_facts (no : @notch Rnum) : Prop := {
  nf_rbt : noRBT no = RBT; nf_rft : noRFT no = RFT; nf_fh : 0 < fh;
  nf_rg : forall v, In v (noFilletRG no) -> - m - ff <= Y v <= - m /\ - fh <= Z v <= - fh + ff /\ X v * ca = hw (Y v) - (fc - (Z v + fh) * kappa);
  nf_rt : forall v, In v (noFilletRT no) -> - m - ff <= Y v <= - m /\ 0 <= Z v <= ff /\ X v * ca = hw (Y v) - (fc + fh - Z v * kappa);
  nf_t : 0 < X RFT -> yf < - m -> forall v, In v (noEdgeT no) -> either upper_pt v;
  nf_g : 0 < X RFT -> yf < - m -> forall v, In v (noEdgeG no) -> either lower_pt v }.

Lemma inner_scaled_r (u v : pt) (k : R) : inner u (scaled k v) = k * inner u v.
Proof. destruct u as [u1 u2 u3], v as [v1 v2 v3]. unfold inner, scaled, P, X, Y, Z. cbn [vx vy vz]. ring. Qed.
Lemma pright_is d : planeRight c thumb pinky d = mkPlane (P (o - d * ca) (d * sa) 0) (P ca (- sa) 0). Proof. reflexivity. Qed.
Lemma notch_made r up lb no : roof_facts c thumb pinky r up ->
  (forall l, In l lb -> exists y z, l = xline y z /\ - m - ff <= y <= - m /\ - fh <= z <= - fh + ff) -> (lb <> [] -> hd (xline 0 0) lb = xline (- m - ff) (- fh)) ->
  newNotch q c r lb = Ok no -> notch_facts no.
Proof.
  intros RF LB LH H. pose proof SP as SP0; destruct SP0 as [S1 S2 S3 S4 S5 S6 S7 S8 S9 S10]. pose proof eps_pos as EP. unfold newNotch in H. cbv zeta in H. rewrite (rf_pr _ _ _ _ _ RF), pright_is in H. cbn [ppos pnormal] in H.
  apply bind_ok in H. destruct H as (bt & E1 & H). apply bind_ok in H. destruct H as (bg & E2 & H). apply bind_ok in H. destruct H as (ft & E3 & H). apply bind_ok in H. destruct H as (fg & E4 & H).
  apply bind_ok in H. destruct H as (rg & E5 & H). apply bind_ok in H. destruct H as (rt & E6 & H). apply bind_ok in H. destruct H as (rft & E7 & H). apply bind_ok in H. destruct H as (rfg & E8 & H).
  apply bind_ok in H. destruct H as (rbt & E9 & H). apply bind_ok in H. destruct H as (rbg & E10 & H). apply bind_ok in H. destruct H as (tn & E11 & H). apply bind_ok in H. destruct H as (tp & E12 & H).
  apply bind_ok in H. destruct H as (frg & E13 & H). apply bind_ok in H. destruct H as (crt & E14 & H). apply bind_ok in H. destruct H as (k & E15 & H). apply bind_ok in H. destruct H as (t0 & E16 & H). apply bind_ok in H. destruct H as (g0 & E17 & H).
  apply Ok_inj in H. subst no.
  apply (newLine_unit _ _ _ unit_x) in E1. apply (newLine_unit _ _ _ unit_x) in E2. apply (newLine_unit _ _ _ unit_x) in E3. apply (newLine_unit _ _ _ unit_x) in E4.
  assert (YF := rf_f _ _ _ _ _ RF). fold m dp in YF.
  assert (L1 : bt = xline (- m) 0) by (rewrite E1; reflexivity). assert (L2 : bg = xline (- m) (- fh)) by (rewrite E2; reflexivity).
  assert (L3 : ft = xline yf 0). { rewrite E3. unfold xline. f_equal. unfold P. f_equal. rn. unfold Y in YF. rewrite YF. unfold yf, fc, fh. ring. }
  assert (L4 : fg = xline (yf - fh) (- fh)). { rewrite E4. unfold xline. f_equal. unfold P. f_equal. rn. unfold Y in YF. rewrite YF. unfold yf, fc, fh. ring. }
  clear E1 E2 E3 E4. subst bt bg ft fg.
  assert (L5 : rg = sline fc (- fh)).
  { assert (UO : unit_vec (vortho2D (P ca (- sa) 0))). { unfold vortho2D, unit_vec, inner, P, X, Y, Z. cbn [pnormal vx vy vz]. rn. lra. }
    apply (newLine_unit _ _ _ UO) in E5. rewrite E5. unfold sline, vortho2D, vsub, vadd, vscale, P. cbn [ppos pnormal vx vy vz]. rn. fold fh fc. f_equal; f_equal; ring. }
  subst rg.
  assert (L6 : rt = sline (fc + fh) 0).
  { rewrite (ltranslated_wf _ _ (sline_wf _ _)) in E6. apply Ok_inj in E6. rewrite <- E6. unfold sline, plus, vsub, vscale, P, X, Y, Z. cbn [lpos ldir ppos pnormal vx vy vz]. rn. fold fh fc. f_equal; f_equal; ring. }
  subst rt. apply meet_side in E7. apply meet_side in E8. apply meet_side in E9. apply meet_side in E10. fold RFT in E7. fold RFG in E8. fold RBT in E9. fold RBG in E10. subst rft rfg rbt rbg.
  (* the slanted plane *)
  set (w := vsub (@V Rnum (nZ 0) (nZ 0) (pa_floorHeight c)) (vscale (P ca (- sa) 0) (pa_floorHeight c))) in *.
  assert (EW : w = scaled fh (P (- ca) sa 1)). { unfold w, planeRight, scaled, vsub, vscale, P, X, Y, Z. cbn [pnormal vx vy vz]. rn. fold fh. f_equal; ring. }
  pose proof (sqrt_sqrt 2 ltac:(lra)) as Q2. pose proof (sqrt_pos 2) as Q0. assert (Q1 : 0 < sqrt 2) by nra.
  assert (FH : 0 < fh). { apply vnorm_ok in E11. destruct E11 as [N _]. destruct (Req_dec fh 0) as [C|C]; [|unfold fh in *; lra]. exfalso. apply N. rewrite EW, C. unfold scaled, origin, P, X, Y, Z. cbn [vx vy vz]. f_equal; ring. }
  assert (TN : tn = scaled (/ sqrt 2) (P (- ca) sa 1)).
  { apply vnorm_ok in E11. destruct E11 as [_ ->]. assert (LW : len w = fh * sqrt 2).
    { rewrite EW. unfold len. apply sqrt_lem_1; [unfold inner; assert (forall x : R, 0 <= x * x) by (intros; apply Rle_0_sqr); repeat apply Rplus_le_le_0_compat; auto|nra|]. unfold inner, scaled, P, X, Y, Z. cbn [vx vy vz].
      replace (fh * sqrt 2 * (fh * sqrt 2)) with (fh * fh * (sqrt 2 * sqrt 2)) by ring. rewrite Q2. assert (K : fh * fh * (ca * ca + sa * sa) = fh * fh) by (rewrite U1; ring). lra. }
    rewrite LW, EW. unfold scaled, P, X, Y, Z. cbn [vx vy vz]. f_equal; field; split; lra. }
  assert (PL : forall v, on_plane tp v -> (Z v + fh) = (X v * ca - hw (Y v) + fc) * (1 + sqrt 2)).
  { intros v OV. apply newPlane_ok in E12. destruct E12 as (_ & PP1 & PN & NO). unfold on_plane in OV. rewrite PP1, PN in OV.
    assert (OV2 : inner (minus v RBG) (vsub tn (P ca (- sa) 0)) = 0).
    { pose proof (len_pos _ NO) as LP. rewrite inner_scaled_r in OV. apply Rmult_integral in OV. destruct OV as [OV|OV]; [|exact OV]. exfalso. apply Rinv_neq_0_compat in OV; [exact OV|lra]. }
    rewrite TN in OV2. assert (XB : X RBG * ca = hw (- m) - fc) by apply side_pt_x. 
    assert (OV3 : (X v - X RBG) * (/ sqrt 2 * - ca - ca) + (Y v - - m) * (/ sqrt 2 * sa - - sa) + (Z v - - fh) * (/ sqrt 2 * 1 - 0) = 0) by exact OV2. clear OV2.
    assert (IV : / sqrt 2 * sqrt 2 = 1) by (apply Rinv_l; lra).
    assert (K1 : (X v - X RBG) * (/ sqrt 2 * - ca - ca) + (Y v - - m) * (/ sqrt 2 * sa - - sa) + (Z v - - fh) * (/ sqrt 2 * 1 - 0) = - (/ sqrt 2 + 1) * (X v * ca - hw (Y v) + fc) + (Z v + fh) * / sqrt 2).
    { replace ((X v - X RBG) * (/ sqrt 2 * - ca - ca)) with (- (/ sqrt 2 + 1) * (X v * ca - X RBG * ca)) by ring. rewrite XB. unfold hw, half_width. fold a ca sa. ring. }
    rewrite K1 in OV3. assert (K2 : (- (/ sqrt 2 + 1) * (X v * ca - hw (Y v) + fc) + (Z v + fh) * / sqrt 2) * sqrt 2 = 0) by (rewrite OV3; ring).
    replace ((- (/ sqrt 2 + 1) * (X v * ca - hw (Y v) + fc) + (Z v + fh) * / sqrt 2) * sqrt 2) with (- (/ sqrt 2 * sqrt 2 + sqrt 2) * (X v * ca - hw (Y v) + fc) + (Z v + fh) * (/ sqrt 2 * sqrt 2)) in K2 by ring. rewrite IV in K2. lra. }
  assert (RG : forall v, In v frg -> - m - ff <= Y v <= - m /\ - fh <= Z v <= - fh + ff /\ X v * ca = hw (Y v) - (fc - (Z v + fh) * kappa)).
  { intros v I. apply cut_lines in E13. destruct (forall2_in_r _ _ _ v E13 I) as (l & Il & OP & OL). destruct (LB l Il) as (y & z & -> & BY & BZ). apply on_xline in OL. destruct OL as [<- <-]. split; [exact BY|]. split; [exact BZ|].
    specialize (PL v OP). unfold kappa. rewrite PL. replace (fc - (X v * ca - hw (Y v) + fc) * (1 + sqrt 2) * (sqrt 2 - 1)) with (fc - (X v * ca - hw (Y v) + fc) * (sqrt 2 * sqrt 2 - 1)) by ring. rewrite Q2. ring. }
  assert (SH : forall v, X (vadd v (vsub RBT RBG)) * ca = X v * ca - fh /\ Y (vadd v (vsub RBT RBG)) = Y v /\ Z (vadd v (vsub RBT RBG)) = Z v + fh).
  { intros v. destruct v as [x y z]. unfold vadd, vsub, RBT, RBG, side_pt, P, X, Y, Z. cbn [vx vy vz]. rn. split; [field; lra|]. split; ring. }
  assert (NE : frg <> []) by (intros C; rewrite C in E17; discriminate).
  assert (G0 : g0 = side_pt fc (- m - ff) (- fh)).
  { destruct (first_is _ _ E17) as (rest & ER). assert (IG : In g0 frg) by (rewrite ER; left; reflexivity). destruct (RG g0 IG) as (_ & _ & XG). apply cut_lines in E13. rewrite ER in E13. destruct lb as [|l ll]; [inversion E13|]. assert (OL : on_line l g0) by (inversion E13 as [|u1 u2 u3 u4 [_ OL] F2]; exact OL).
    specialize (LH ltac:(discriminate)). cbn [hd] in LH. subst l. apply on_xline in OL. destruct OL as [OY OZ]. rewrite OY, OZ in XG. apply pt_ext; [|exact OY|exact OZ].
    apply (Rmult_eq_reg_r ca); [|lra]. rewrite side_pt_x, XG. ring. }
  assert (T0 : t0 = side_pt (fc + fh) (- m - ff) 0).
  { destruct (first_is _ _ E17) as (rest & ER). destruct (first_is _ _ E16) as (rest2 & ER2). rewrite ER in ER2. cbn [etranslated map] in ER2. injection ER2 as <- _. destruct (SH g0) as (XS & YS & ZS). rewrite G0 in XS at 2. rewrite side_pt_x in XS. rewrite G0 in YS at 2. rewrite G0 in ZS at 2.
    apply pt_ext; [|exact YS|rewrite ZS; unfold side_pt, P, Z; cbn [vz]; ring]. apply (Rmult_eq_reg_r ca); [|lra]. rewrite side_pt_x, XS. ring. }
  assert (MIR : forall (Q : pt -> Prop) l v, (forall w0, In w0 l -> Q w0) -> In v (l ++ rev (emirX l)) -> either Q v).
  { intros Q l v HQ I. apply in_app_or in I. destruct I as [I|I]; [left; apply HQ, I|]. apply (proj2 (in_rev _ _)) in I. unfold emirX in I. apply in_map_iff in I. destruct I as (w0 & <- & I). right. exists w0. split; [apply HQ, I|reflexivity]. }
  apply pdiv_ok in E15. destruct E15 as [_ E15]. change (k = fh / hr) in E15.
  constructor; cbn [noRBT noRFT noFilletRG noFilletRT noEdgeT noEdgeG]; try reflexivity.
  - exact FH.
  - exact RG.
  - intros v I. unfold etranslated in I. apply in_map_iff in I. destruct I as (v0 & <- & I). destruct (RG v0 I) as (BY & BZ & BX). destruct (SH v0) as (XS & YS & ZS). rewrite XS, YS, ZS. split; [exact BY|]. split; [lra|]. rewrite BX. ring.
  - intros XP YM v. apply MIR. intros w0 [<-|I]; [left; exact T0|]. right. exact (corner_made crt YM XP E14 w0 I).
  - intros XP YM v. apply MIR. intros w0 [<-|I]; [left; exact G0|]. right. unfold etranslated, escaled in I. apply in_map_iff in I. destruct I as (w1 & <- & I). apply in_map_iff in I. destruct I as (w2 & <- & I). apply in_map_iff in I. destruct I as (w3 & <- & I).
    destruct (corner_made crt YM XP E14 w3 I) as (t & BT & ->). exists t. split; [exact BT|]. rewrite E15. destruct (corner_pt t) as [x1 x2 x3], RFT as [y1 y2 y3], RFG as [z1 z2 z3]. unfold vadd, vscale, vsub, vopp, vzero, plus, scaled, minus, P, X, Y, Z. cbn [vx vy vz]. rn. f_equal; ring.
Qed.
End Notch.
