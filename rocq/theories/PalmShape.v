(** Where the surface of the palm rest runs. *)
From Coq Require Import Reals Lra Psatz ZArith List Bool Arith Lia.
From Verif Require Import Num GeoModel EdgeModel GeoSpec GeoMat GeoPlane ArcModel ArcSpec ArcProof ArcShape PartProof CableProof MeshModel LayoutModel BossModel PlanModel BracketModel
  BumperModel PalmModel PalmSpec.
Import ListNotations.
Open Scope R_scope.

Lemma skipn_in {A} n (l : list A) x : In x (skipn n l) -> In x l.
Proof. intros I. rewrite <- (firstn_skipn n l). apply in_or_app. right. exact I. Qed.
Lemma along_shift (ce u : pt) (r t : R) : Z u = 0 -> vadd (along ce r t) u = along (plus ce u) r t.
Proof. intros H. destruct u as [u1 u2 u3], ce as [c1 c2 c3]. unfold along, plus, P, X, Y, Z, vadd in *. cbn [vx vy vz] in *. rn. f_equal; [ring|ring|]. rewrite H. ring. Qed.
Lemma plus_assoc (a b d : pt) : plus (plus a b) d = plus a (plus b d).
Proof. destruct a as [a1 a2 a3], b as [b1 b2 b3], d as [d1 d2 d3]. unfold plus, P, X, Y, Z. cbn [vx vy vz]. f_equal; ring. Qed.

Lemma radius_eq (a b s x : R) : s <> 0 -> (a + (b - x) * (2 * s)) / (2 * s) = b + a / (2 * s) - x. Proof. intros. field. assumption. Qed.

Section Spine.
Variables (q : @quality Rnum) (c : @palm_cfg Rnum).
Let rf : R := pa_roofFillet c.
Let tilt : R := pa_tiltAngle c.
Let ra : R := roof_turn c.
Let eb : R := roof_start c.
Hypothesis T1 : - (PI / 4) <= tilt <= PI / 4.
Hypothesis D1 : 2 * rf + eps <= pa_depth c.

Lemma turn_range : 0 <= ra <= PI / 2.
Proof.
  unfold ra, roof_turn. pose proof PI_RGT_0. assert (0 <= Rmax 0 (Rmin (pa_roundness c) 1) <= 1).
  { split; [apply Rmax_l|]. apply Rmax_lub; [lra|apply Rmin_r]. } split; nra.
Qed.
Lemma eb_range : 0 <= eb /\ eb + ra <= PI.
Proof. pose proof turn_range. unfold eb, roof_start. fold ra. fold tilt. lra. Qed.
Lemma cos_tilt : 0 < cos tilt. Proof. pose proof PI_RGT_0. apply cos_gt_0; lra. Qed.
Lemma cos_eb : cos eb = sin (ra / 2 - tilt).
Proof. unfold eb, roof_start. fold ra tilt. replace (PI / 2 - ra / 2 + tilt) with (PI / 2 - (ra / 2 - tilt)) by ring. apply cos_shift. Qed.
Lemma cos_ef : cos (PI / 2 - ra / 2 - tilt) = sin (ra / 2 + tilt).
Proof. replace (PI / 2 - ra / 2 - tilt) with (PI / 2 - (ra / 2 + tilt)) by ring. apply cos_shift. Qed.
Lemma cos_sum : cos eb + cos (PI / 2 - ra / 2 - tilt) = 2 * sin (ra / 2) * cos tilt.
Proof. rewrite cos_eb, cos_ef, sin_minus, sin_plus. ring. Qed.
Lemma half_turn_pos : 0 < ra -> 0 < sin (ra / 2).
Proof. intros H. pose proof turn_range. pose proof PI_RGT_0. apply sin_gt_0; lra. Qed.
(* the two ends of the roof arc *)
Lemma u_start : cos eb = sin (ra / 2) * cos tilt - cos (ra / 2) * sin tilt /\ sin eb = cos (ra / 2) * cos tilt + sin (ra / 2) * sin tilt.
Proof.
  split; [rewrite cos_eb; apply sin_minus|]. unfold eb, roof_start. fold ra tilt. replace (PI / 2 - ra / 2 + tilt) with (PI / 2 - (ra / 2 - tilt)) by ring. rewrite sin_shift. apply cos_minus.
Qed.
Lemma u_end : cos (eb + ra) = - (sin (ra / 2) * cos tilt + cos (ra / 2) * sin tilt) /\ sin (eb + ra) = cos (ra / 2) * cos tilt - sin (ra / 2) * sin tilt.
Proof.
  unfold eb, roof_start. fold ra tilt. replace (PI / 2 - ra / 2 + tilt + ra) with (PI / 2 + (ra / 2 + tilt)) by field. rewrite <- sin_plus, <- cos_plus. split.
  - rewrite cos_plus, cos_PI2, sin_PI2. ring.
  - rewrite sin_plus, cos_PI2, sin_PI2. ring.
Qed.

(* the same point of the profile, seen from both neighbouring arcs *)
Lemma meet_back i : 0 < ra -> along (back_centre c) (rf - i) eb = along (roof_centre c) (roof_radius c - i) eb.
Proof. intros H. unfold roof_centre, along. fold rf eb. unfold P, X, Y. cbn [vx vy vz]. f_equal; ring. Qed.
Lemma meet_front i : 0 < ra -> along (front_centre c) (rf - i) (eb + ra) = along (roof_centre c) (roof_radius c - i) (eb + ra).
Proof.
  intros H. pose proof (half_turn_pos H) as SP. pose proof cos_tilt as CT. destruct u_start as [A B]. destruct u_end as [A2 B2]. unfold roof_centre, front_centre, along. fold rf eb tilt. unfold P, X, Y. cbn [vx vy vz].
  rewrite A, B, A2, B2. unfold roof_radius. fold rf ra. unfold fillet_pitch. fold rf tilt. f_equal; field; split; lra.
Qed.

Lemma fillet_max i : 0 <= i -> i <= rf -> @pmax Rnum (nZ 0) (nsub (Num := Rnum) (pa_roofFillet c) i) = rf - i.
Proof. intros H1 H2. rewrite pmax_R. apply Rmax_right. fold rf. change (0 <= rf - i). lra. Qed.
Lemma roof_angle_is : @nmul Rnum (ndiv tau (nZ 4)) (pmax (nZ 0) (pmin (pa_roundness c) (nZ 1))) = ra.
Proof. rewrite pmin_R, pmax_R. unfold ra, roof_turn. change (2 * PI / 4 * Rmax 0 (Rmin (pa_roundness c) 1) = PI / 2 * Rmax 0 (Rmin (pa_roundness c) 1)). field. Qed.
Lemma end_b_is : @nadd Rnum (nsub (ndiv tau (nZ 4)) (ndiv ra (nZ 2))) (pa_tiltAngle c) = eb.
Proof. unfold eb, roof_start. fold ra. change (2 * PI / 4 - ra / 2 + pa_tiltAngle c = PI / 2 - ra / 2 + pa_tiltAngle c). field. Qed.
Lemma end_f_is : @nsub Rnum (nsub (ndiv tau (nZ 4)) (ndiv ra (nZ 2))) (pa_tiltAngle c) = PI - (eb + ra).
Proof. unfold eb, roof_start. fold ra. change (2 * PI / 4 - ra / 2 - pa_tiltAngle c = PI - (PI / 2 - ra / 2 + pa_tiltAngle c + ra)). field. Qed.

(* the lines of the spine: rulings of the profile *)
Definition ruling (p : pt) : @line Rnum := mkLine (P (Y p * sin (pa_tentAngle c)) (X p) (Y p * cos (pa_tentAngle c))) (P (cos (pa_tentAngle c)) 0 (- sin (pa_tentAngle c))).
Lemma ruling_made (p : pt) l : (l0 <- newLine (@V Rnum (nZ 0) (vx p) (vy p)) (V (nZ 1) (nZ 0) (nZ 0)) ;; ltransformed l0 (mrotY mid (pa_tentAngle c) None)) = Ok l -> l = ruling p.
Proof.
  intros H. apply bind_ok in H. destruct H as (l0 & E & H). unfold newLine in E. change (@V Rnum (nZ 1) (nZ 0) (nZ 0)) with (P 1 0 0) in E. rewrite (vnorm_of_unit (P 1 0 0)) in E by (unfold unit_vec, inner, P, X, Y, Z; cbn [vx vy vz]; ring).
  cbn [bind] in E. apply Ok_inj in E. subst l0. unfold ltransformed in H. apply bind_ok in H. destruct H as (d & E & H). cbn [lpos ldir] in *.
  assert (U : unit_vec (P (cos (pa_tentAngle c)) 0 (- sin (pa_tentAngle c)))).
  { unfold unit_vec, inner, P, X, Y, Z. cbn [vx vy vz]. pose proof (sin2_cos2 (pa_tentAngle c)) as Q. unfold Rsqr in Q. lra. }
  assert (ED : d = P (cos (pa_tentAngle c)) 0 (- sin (pa_tentAngle c))).
  { unfold transformedNormal in E. match type of E with vnorm ?v = _ => assert (EV : v = P (cos (pa_tentAngle c)) 0 (- sin (pa_tentAngle c))) end.
    { unfold mrotY, rotate_about, mmul, rotY, mid, P. cbn [m0 m1 m2 m3 m4 m5 m6 m7 m8 m9 m10 m11 m12 m13 m14 m15 vx vy vz]. rn. f_equal; ring. }
    rewrite EV, (vnorm_of_unit _ U) in E. apply Ok_inj in E. subst. reflexivity. }
  subst d. unfold newLine in H. rewrite (vnorm_of_unit _ U) in H. cbn [bind] in H. apply Ok_inj in H. subst l. unfold ruling. f_equal.
  destruct p as [p1 p2 p3]. unfold transformed, mrotY, rotate_about, mmul, rotY, mid, P, X, Y, Z. cbn [m0 m1 m2 m3 m4 m5 m6 m7 m8 m9 m10 m11 m12 m13 m14 m15 vx vy vz]. rn. f_equal; ring.
Qed.

Lemma hd_app_ne {A} (l m : list A) d : l <> [] -> hd d (l ++ m) = hd d l. Proof. destruct l; [contradiction|reflexivity]. Qed.
Lemma last_app_skip (l m : list pt) (u : pt) (r : list pt) : m = u :: r -> vadd (last l vzero) (vsub u u) = last l vzero.
Proof. intros _. destruct (last l vzero) as [a b d], u as [x y z]. unfold vadd, vsub. cbn [vx vy vz]. rn. f_equal; ring. Qed.
(* appending an arc whose first point is moved onto the last point *)
Lemma last_joined (l m : list pt) (s u : pt) : l <> [] -> last l vzero = s -> m <> [] -> hd vzero m = u ->
  last (l ++ etranslated (skipn 1 m) (vsub s u)) vzero = vadd (last m vzero) (vsub s u).
Proof.
  intros L E M H. destruct m as [|m0 m]; [contradiction|]. cbn [hd] in H. subst m0. cbn [skipn]. destruct m as [|m1 m].
  - cbn [etranslated map]. rewrite app_nil_r, E. cbn [last]. destruct s as [a b d], u as [x y z]. unfold vadd, vsub. cbn [vx vy vz]. rn. f_equal; ring.
  - assert (NE : etranslated (m1 :: m) (vsub s u) <> []) by discriminate. destruct (exists_last NE) as (r & y & EY). rewrite EY, app_assoc, last_last.
    assert (LM : m1 :: m <> []) by discriminate. destruct (exists_last LM) as (r' & y' & EY'). rewrite EY' in EY. unfold etranslated in EY. rewrite map_app in EY. cbn [map] in EY. apply app_inj_tail in EY. destruct EY as [_ EY].
    rewrite EY'. change (u :: r' ++ [y']) with ((u :: r') ++ [y']). rewrite last_last. symmetry. exact EY.
Qed.

Lemma spine_form i ls : 0 <= i -> i <= rf -> rf - i = 0 \/ eps <= rf - i -> roofSpine q c i = Ok ls ->
  exists sk, ls = map ruling sk /\ sk <> [] /\ (forall p, In p sk -> profile c i p) /\
    hd vzero sk = along (back_centre c) (rf - i) 0 /\ last sk vzero = along (front_centre c) (rf - i) PI.
Proof.
  intros I0 I1 I2 H. pose proof eps_pos as EP. pose proof PI_RGT_0 as PP. pose proof turn_range as RR. pose proof eb_range as [B0 B1]. pose proof cos_tilt as CT. fold tilt in CT.
  unfold roofSpine in H. cbv zeta in H. rewrite roof_angle_is in H. rewrite (fillet_max i I0 I1) in H. rewrite end_b_is, end_f_is in H.
  apply bind_ok in H. destruct H as (ab & EB & H). apply bind_ok in H. destruct H as (af & EF & H).
  apply bind_ok in H. destruct H as (b0 & P0 & H). apply bind_ok in H. destruct H as (b1 & P1 & H). apply bind_ok in H. destruct H as (f0 & P2 & H). apply bind_ok in H. destruct H as (f1 & P3 & H).
  apply bind_ok in H. destruct H as (ch & ECH & H). apply bind_ok in H. destruct H as (roof & ER & H). apply bind_ok in H. destruct H as (s1 & PS & H). apply bind_ok in H. destruct H as (r0 & PR & H).
  apply bind_ok in H. destruct H as (s2 & PS2 & H). apply bind_ok in H. destruct H as (f0' & PF & H). rewrite P2 in PF. apply Ok_inj in PF. subst f0'.
  replace (@nsub Rnum npi (PI - (eb + ra))) with (eb + ra) in EF by (change (eb + ra = PI - (PI - (eb + ra))); ring).
  assert (HB : Rabs eb <= PI) by (rewrite Rabs_right; lra). assert (HF : Rabs (PI - (eb + ra)) <= PI) by (rewrite Rabs_right; lra).
  destruct (first_is _ _ P0) as (abr & EAB). destruct (first_is _ _ P2) as (afr & EAF).
  assert (NB : ab <> []) by (rewrite EAB; discriminate). assert (NF : af <> []) by (rewrite EAF; discriminate).
  destruct (arc_ends q (rf - i) 0 eb vzero ab I2 HB EB eq_refl NB) as [HB0 HB1]. destruct (arc_ends q (rf - i) (eb + ra) (PI - (eb + ra)) vzero af I2 HF EF eq_refl NF) as [HF0 HF1].
  pose proof (arc_between q (rf - i) 0 eb vzero ab I2 HB EB eq_refl) as AB. pose proof (arc_between q (rf - i) (eb + ra) (PI - (eb + ra)) vzero af I2 HF EF eq_refl) as AF.
  replace (eb + ra + (PI - (eb + ra))) with PI in AF, HF1 by ring. replace (0 + eb) with eb in AB, HB1 by ring.
  pose proof (end_is _ _ vzero P1) as L1. pose proof (end_is _ _ vzero P3) as L3. rewrite EAB in HB0 at 1. cbn [hd] in HB0. rewrite EAF in HF0 at 1. cbn [hd] in HF0. rewrite L1 in HB1. rewrite L3 in HF1.
  fold (along vzero (rf - i) 0) in HB0. fold (along vzero (rf - i) eb) in HB1. fold (along vzero (rf - i) (eb + ra)) in HF0. fold (along vzero (rf - i) PI) in HF1.
  (* the width of the roof *)
  set (D := fillet_pitch c). assert (D0 : eps <= D).
  { unfold D, fillet_pitch. fold rf tilt. apply (Rmult_le_reg_r (cos tilt)); [exact CT|]. unfold Rdiv. rewrite Rmult_assoc, Rinv_l by lra. pose proof (COS_bound tilt). nra. }
  destruct u_start as [US _]. destruct u_end as [UE _].
  apply pdiv_ok in ECH. destruct ECH as [_ ECH].
  assert (WD : ch = D + (rf - i) * (2 * sin (ra / 2)) /\ ch * cos tilt = @nsub Rnum (nsub (nsub (pa_depth c) (nmul (nZ 2) i)) (nsub (vx b0) (vx b1))) (nsub (vx f0) (vx f1))).
  { split; [|rewrite ECH; change (@ncos Rnum (pa_tiltAngle c)) with (cos tilt); unfold Rdiv; rewrite Rmult_assoc, Rinv_l by lra; apply Rmult_1_r].
    rewrite ECH, HB0, HB1, HF0, HF1. unfold along, P, X, Y. cbn [vx vy vz]. rn. change (@vx Rnum vzero) with 0. change (cos (pa_tiltAngle c)) with (cos tilt). rewrite US, UE, cos_0, cos_PI. unfold D, fillet_pitch. fold rf tilt. field. lra. }
  destruct WD as [EC EW].
  set (off := @vopp Rnum (@V Rnum (nadd (Num := Rnum) (nadd (Num := Rnum) (pa_bodyMargin c) (rf - i)) i) (nadd (Num := Rnum) (rf - i) i) (nZ 0))) in *.
  assert (OB : plus vzero off = back_centre c). { unfold off, back_centre, plus, vopp, vzero, P, X, Y, Z. cbn [vx vy vz]. rn. fold rf. f_equal; ring. }
  assert (SK1 : etranslated ab off <> []) by (rewrite EAB; discriminate).
  assert (IN1 : forall p, In p (etranslated ab off) -> profile c i p).
  { intros p IP. unfold etranslated in IP. apply in_map_iff in IP. destruct IP as (p0 & <- & IP). destruct (AB p0 IP) as (t & BT & ->). left. exists t. split; [destruct BT as [BT|BT]; fold eb; lra|].
    fold (along vzero (rf - i) t). rewrite along_shift by (unfold off, vopp, Z; cbn [vz]; rn; ring). rewrite OB. reflexivity. }
  assert (HD1 : hd vzero (etranslated ab off) = along (back_centre c) (rf - i) 0).
  { rewrite EAB. cbn [etranslated map hd]. rewrite HB0. rewrite along_shift by (unfold off, vopp, Z; cbn [vz]; rn; ring). rewrite OB. reflexivity. }
  assert (ES1 : s1 = along (back_centre c) (rf - i) eb).
  { apply (end_is _ _ vzero) in PS. rewrite <- PS. unfold etranslated. destruct (exists_last NB) as (ab' & y & EY). rewrite EY, map_app. cbn [map]. rewrite last_last. rewrite EY, last_last in L1. subst y. rewrite HB1.
    rewrite along_shift by (unfold off, vopp, Z; cbn [vz]; rn; ring). rewrite OB. reflexivity. }
  assert (LS1 : last (etranslated ab off) vzero = s1) by (apply (end_is _ _ vzero) in PS; exact PS).
  (* the roof *)
  assert (RF : roof <> [] /\ hd vzero roof = r0 /\ vadd (last roof vzero) (vsub s1 r0) = along (front_centre c) (rf - i) (eb + ra) /\ forall p, In p (skipn 1 roof) -> profile c i (vadd p (vsub s1 r0))).
  { destruct (first_is _ _ PR) as (rr & ERR). split; [rewrite ERR; discriminate|]. split; [rewrite ERR; reflexivity|].
    destruct (nltb (Num := Rnum) (nZ 0) ra) eqn:CR.
    - change (Rltb 0 ra = true) in CR. apply Rltb_true in CR. pose proof (half_turn_pos CR) as SP. pose proof (SIN_bound (ra / 2)) as SB.
      apply bind_ok in ER. destruct ER as (r & E1 & ER). apply bind_ok in ER. destruct ER as (a & E2 & ER). apply Ok_inj in ER. apply pdiv_ok in E1. destruct E1 as [_ E1].
      change (r = ch / (2 * sin (ra / 2))) in E1.
      assert (ERd : r = roof_radius c - i). { rewrite E1, EC. apply radius_eq. lra. }
      assert (R2 : eps <= r * 2). { rewrite E1. replace (ch / (2 * sin (ra / 2)) * 2) with (ch / sin (ra / 2)) by (field; lra). apply (Rmult_le_reg_r (sin (ra / 2))); [exact SP|]. unfold Rdiv. rewrite Rmult_assoc, Rinv_l by lra.
        assert (0 <= (rf - i) * (2 * sin (ra / 2))) by (apply Rmult_le_pos; lra). nra. }
      assert (HRA : Rabs ra <= PI) by (rewrite Rabs_right; lra). change (@nmul Rnum r (nZ 2)) with (r * 2) in E2.
      assert (NA : a <> []). { intros ->. cbn in ER. subst roof. discriminate. }
      destruct (arc_ends q (r * 2) eb ra vzero a (or_intror R2) HRA E2 eq_refl NA) as [HA0 HA1]. pose proof (arc_between q (r * 2) eb ra vzero a (or_intror R2) HRA E2 eq_refl) as AA.
      assert (HALF : forall t, vadd (vscale (vsub (along vzero (r * 2) t) vzero) (nQ 1 2)) vzero = along vzero r t).
      { intros t. unfold along, vadd, vscale, vsub, vzero, P, X, Y. cbn [vx vy vz]. rn. f_equal; field. }
      assert (ER0 : r0 = along vzero r eb). { destruct a as [|a0 a']; [contradiction|]. cbn [hd] in HA0. subst a0. unfold escaled in ER. cbn [map] in ER. rewrite <- ER in ERR. fold (along vzero (r * 2) eb) in ERR. rewrite HALF in ERR. injection ERR as -> _. reflexivity. }
      assert (SH : plus vzero (vsub s1 r0) = roof_centre c). { rewrite ES1, ER0. unfold plus, vsub, vzero, roof_centre, along, P, X, Y, Z. cbn [vx vy vz]. rn. fold rf eb. rewrite ERd. f_equal; ring. }
      assert (ZS : Z (vsub s1 r0) = 0) by (rewrite ES1, ER0; unfold vsub, along, P, Z; cbn [vz]; rn; ring).
      split.
      + destruct (exists_last NA) as (a' & y & EY). rewrite EY, last_last in HA1. rewrite <- ER. unfold escaled. rewrite EY, map_app. cbn [map]. rewrite last_last, HA1. fold (along vzero (r * 2) (eb + ra)). rewrite HALF. rewrite along_shift by exact ZS. rewrite SH, ERd. symmetry. apply meet_front, CR.
      + intros p IP. apply skipn_in in IP. rewrite <- ER in IP. unfold escaled in IP. apply in_map_iff in IP. destruct IP as (p0 & <- & IP). destruct (AA p0 IP) as (t & BT & ->). fold (along vzero (r * 2) t). rewrite HALF. rewrite along_shift by exact ZS. rewrite SH, ERd.
        right. left. split; [exact CR|]. exists t. split; [fold eb ra; destruct BT as [BT|BT]; lra|reflexivity].
    - change (Rltb 0 ra = false) in CR. apply Rltb_false in CR. assert (R0 : ra = 0) by lra. apply Ok_inj in ER. rewrite <- ER in ERR. injection ERR as E0 _. 
      assert (END : vadd (@V Rnum (nopp (nsub (Num := Rnum) (nsub (nsub (pa_depth c) (nmul (nZ 2) i)) (nsub (vx b0) (vx b1))) (nsub (vx f0) (vx f1)))) (nopp (nmul ch (nsin (pa_tiltAngle c)))) (nZ 0)) (vsub s1 r0) = along (front_centre c) (rf - i) (eb + ra)).
      { rewrite <- EW, ES1, <- E0. change (@nsin Rnum (pa_tiltAngle c)) with (sin tilt). rewrite EC, R0. replace (0 / 2) with 0 by field. rewrite sin_0, Rplus_0_r. unfold vadd, vsub, vzero, along, front_centre, P, X, Y. cbn [vx vy vz]. rn. fold tilt D. f_equal; ring. }
      rewrite <- ER. cbn [last skipn]. split; [exact END|]. intros p [<-|[]]. rewrite END. right. right. exists (eb + ra). split; [fold eb ra; lra|reflexivity]. }
  destruct RF as (NR & HR & LR & IR).
  assert (L2 : last (etranslated ab off ++ etranslated (skipn 1 roof) (vsub s1 r0)) vzero = along (front_centre c) (rf - i) (eb + ra)).
  { exact (eq_trans (last_joined _ roof s1 r0 SK1 LS1 NR HR) LR). }
  assert (ES2 : s2 = along (front_centre c) (rf - i) (eb + ra)) by (apply (end_is _ _ vzero) in PS2; rewrite <- PS2; exact L2).
  assert (NE2 : etranslated ab off ++ etranslated (skipn 1 roof) (vsub s1 r0) <> []) by (rewrite EAB; discriminate).
  assert (SH : plus vzero (vsub s2 f0) = front_centre c). { rewrite ES2, HF0. unfold plus, vsub, vzero, along, P, X, Y, Z. cbn [vx vy vz]. rn. unfold front_centre, P. cbn [vx vy]. f_equal; ring. }
  assert (ZS : Z (vsub s2 f0) = 0) by (rewrite ES2, HF0; unfold vsub, along, P, Z; cbn [vz]; rn; ring).
  exists ((etranslated ab off ++ etranslated (skipn 1 roof) (vsub s1 r0)) ++ etranslated (skipn 1 af) (vsub s2 f0)). split; [|split; [|split; [|split]]].
  - apply mapM_ok in H. clear -H. induction H as [|u v lu lv Hu F IH]; [reflexivity|]. cbn [map]. rewrite <- IH. f_equal. apply ruling_made, Hu.
  - rewrite EAB. discriminate.
  - intros p IP. apply in_app_or in IP. destruct IP as [IP|IP].
    + apply in_app_or in IP. destruct IP as [IP|IP]; [exact (IN1 p IP)|]. unfold etranslated in IP. apply in_map_iff in IP. destruct IP as (p0 & <- & IP). exact (IR p0 IP).
    + unfold etranslated in IP. apply in_map_iff in IP. destruct IP as (p0 & <- & IP). apply skipn_in in IP. destruct (AF p0 IP) as (t & BT & ->). fold (along vzero (rf - i) t). rewrite along_shift by exact ZS. rewrite SH.
      right. right. exists t. split; [fold eb ra; destruct BT as [BT|BT]; lra|reflexivity].
  - rewrite <- app_assoc, hd_app_ne by exact SK1. exact HD1.
  - assert (HAF : hd vzero af = f0) by (rewrite EAF; reflexivity). refine (eq_trans (last_joined _ af s2 f0 NE2 (eq_trans L2 (eq_sym ES2)) NF HAF) _). assert (L3' : last af vzero = along vzero (rf - i) PI) by (rewrite L3; exact HF1). eapply eq_trans; [apply (f_equal (fun u => vadd u (vsub s2 f0)) L3')|]. rewrite along_shift by exact ZS. rewrite SH. reflexivity.
Qed.
End Spine.
