(** The corners of the palm rest lie in its box. *)
From Coq Require Import Reals Lra Psatz ZArith List Bool Arith Lia.
From Verif Require Import Num GeoModel EdgeModel GeoSpec GeoMat GeoPlane ArcModel ArcSpec ArcProof ArcCorner ArcShape PartProof CableProof MeshModel LayoutModel BossModel PlanModel PlanSpec2 WallProof BracketModel
  BumperModel PalmModel PalmSpec PalmShape.
Import ListNotations.
Open Scope R_scope.

Lemma newLine_unit (p d : pt) l : unit_vec d -> newLine p d = Ok l -> l = mkLine p d.
Proof. intros U H. unfold newLine in H. rewrite (vnorm_of_unit _ U) in H. cbn [bind] in H. apply Ok_inj in H. subst. reflexivity. Qed.
Lemma newPlane_unit (p d : pt) l : unit_vec d -> newPlane p d = Ok l -> l = mkPlane p d.
Proof. intros U H. unfold newPlane in H. rewrite (vnorm_of_unit _ U) in H. cbn [bind] in H. apply Ok_inj in H. subst. reflexivity. Qed.
Lemma unit_x : unit_vec (P 1 0 0). Proof. unfold unit_vec, inner, P, X, Y, Z. cbn [vx vy vz]. ring. Qed.
Lemma profile_ends (c : @palm_cfg Rnum) i p : - (PI / 4) <= pa_tiltAngle c <= PI / 4 -> 2 * pa_roofFillet c + eps <= pa_depth c -> 0 <= i <= pa_roofFillet c -> profile c i p ->
  - (pa_bodyMargin c + pa_depth c) + i <= X p <= - pa_bodyMargin c - i.
Proof.
  intros T1 D1 I H. pose proof eps_pos as EP. pose proof (cos_tilt c T1) as CT. pose proof (eb_range c T1) as [B0 B1]. pose proof (turn_range c) as TR.
  assert (XF : X (front_centre c) = - (pa_bodyMargin c + pa_depth c) + pa_roofFillet c).
  { unfold front_centre, fillet_pitch, P, X. cbn [vx]. unfold back_centre, P. cbn [vx]. unfold X. cbn [vx]. field. lra. }
  assert (XB : X (back_centre c) = - pa_bodyMargin c - pa_roofFillet c) by (unfold back_centre, P, X; cbn [vx]; ring).
  assert (AX : forall (ce : pt) (r t : R), X (along ce r t) = X ce + r * cos t) by reflexivity.
  assert (BK : forall t, - (pa_bodyMargin c + pa_depth c) + i <= X (along (back_centre c) (pa_roofFillet c - i) t) <= - pa_bodyMargin c - i).
  { intros t. rewrite AX, XB. pose proof (COS_bound t). nra. }
  assert (FT : forall t, - (pa_bodyMargin c + pa_depth c) + i <= X (along (front_centre c) (pa_roofFillet c - i) t) <= - pa_bodyMargin c - i).
  { intros t. rewrite AX, XF. pose proof (COS_bound t). nra. }
  destruct H as [(t & TT & ->)|[(RA & t & TT & ->)|(t & TT & ->)]]; [apply BK| |apply FT].
  pose proof (BK (roof_start c)) as K1. pose proof (FT (roof_start c + roof_turn c)) as K2. rewrite (meet_back c i RA) in K1. rewrite (meet_front c T1 i RA) in K2.
  assert (RP : 0 <= roof_radius c - i).
  { unfold roof_radius. pose proof (half_turn_pos c RA) as SP. assert (0 <= fillet_pitch c / (2 * sin (roof_turn c / 2))); [|lra]. apply Rmult_le_pos; [|left; apply Rinv_0_lt_compat; lra].
    unfold fillet_pitch. apply Rmult_le_pos; [lra|left; apply Rinv_0_lt_compat, CT]. }
  assert (C1 : cos t <= cos (roof_start c)) by (apply cos_decr_1; lra). assert (C2 : cos (roof_start c + roof_turn c) <= cos t) by (apply cos_decr_1; lra).
  unfold along, P, X in *. cbn [vx] in *. pose proof (Rmult_le_compat_l _ _ _ RP C1). pose proof (Rmult_le_compat_l _ _ _ RP C2). lra.
Qed.

Section Box.
Variables (q : @quality Rnum) (c : @palm_cfg Rnum) (thumb pinky : pt).
Let o : R := @ndiv Rnum (vmag (vsub pinky thumb)) (nZ 2).
Hypothesis SP : sane_palm c o.
Let a : R := pa_taperAngle c.
Let ca : R := cos a.
Let sa : R := sin a.
Let m : R := pa_bodyMargin c.
Let dp : R := pa_depth c.
Let fh : R := pa_floorHeight c.
Let ff : R := pa_floorFillet c.
Let hw (y : R) : R := half_width c o y.

Lemma ca_pos : 0 < ca. Proof. unfold ca, a. destruct (sp_taper c o SP). pose proof PI_RGT_0. apply cos_gt_0; lra. Qed.
Lemma sa_nn : 0 <= sa. Proof. unfold sa, a. destruct (sp_taper c o SP). pose proof PI_RGT_0. apply sin_ge_0; lra. Qed.
Lemma unit_a : ca * ca + sa * sa = 1. Proof. unfold ca, sa. pose proof (sin2_cos2 a) as Q. unfold Rsqr in Q. lra. Qed.
Lemma hw_is y : hw y = o * ca + y * sa. Proof. reflexivity. Qed.
Lemma hw_mono y y' : y <= y' -> hw y <= hw y'. Proof. intros H. rewrite !hw_is. pose proof sa_nn. nra. Qed.
Lemma unit_n : unit_vec (P ca (- sa) 0). Proof. pose proof unit_a. unfold unit_vec, inner, P, X, Y, Z. cbn [vx vy vz]. lra. Qed.
Lemma unit_nl : unit_vec (P (- ca) (- sa) 0). Proof. pose proof unit_a. unfold unit_vec, inner, P, X, Y, Z. cbn [vx vy vz]. lra. Qed.
Definition planeRight (d : R) : @plane Rnum := mkPlane (P (o - d * ca) (d * sa) 0) (P ca (- sa) 0).
Definition planeLeft (d : R) : @plane Rnum := mkPlane (P (- (o - d * ca)) (d * sa) 0) (P (- ca) (- sa) 0).
Lemma on_right d v : on_plane (planeRight d) v <-> X v * ca = hw (Y v) - d.
Proof. unfold on_plane, planeRight. cbn [ppos pnormal]. unfold inner, minus, P, X, Y, Z. cbn [vx vy vz]. rewrite hw_is. assert (K : d * (ca * ca + sa * sa) = d) by (rewrite unit_a; ring). destruct v as [x y z]. cbn [vx vy vz]. split; intros; lra. Qed.
Lemma on_left d v : on_plane (planeLeft d) v <-> - X v * ca = hw (Y v) - d.
Proof. unfold on_plane, planeLeft. cbn [ppos pnormal]. unfold inner, minus, P, X, Y, Z. cbn [vx vy vz]. rewrite hw_is. assert (K : d * (ca * ca + sa * sa) = d) by (rewrite unit_a; ring). destruct v as [x y z]. cbn [vx vy vz]. split; intros; lra. Qed.

Lemma on_ruling_line p v : on_line (ruling c p) v -> on_ruling c 0 p v.
Proof.
  intros (k & ->). unfold ruling, on_ruling. cbn [lpos ldir]. pose proof (sin2_cos2 (pa_tentAngle c)) as Q. unfold Rsqr in Q. destruct p as [p1 p2 p3].
  assert (K : p2 * (sin (pa_tentAngle c) * sin (pa_tentAngle c) + cos (pa_tentAngle c) * cos (pa_tentAngle c)) = p2) by (rewrite Q; ring).
  unfold plus, scaled, P, X, Y, Z. cbn [vx vy vz]. split; [ring|]. lra.
Qed.
Lemma cut_lines pl ls vs : cut pl ls = Ok vs -> Forall2 (fun l v => on_plane pl v /\ on_line l v) ls vs.
Proof. intros H. apply mapM_ok in H. induction H as [|l v ls' vs' E F IH]; constructor; [exact (pintersectLine_sound pl l v E)|exact IH]. Qed.
Lemma cut_rulings pl sk vs : cut pl (map (ruling c) sk) = Ok vs -> Forall2 (fun p v => on_plane pl v /\ on_ruling c 0 p v) sk vs.
Proof.
  intros H. apply cut_lines in H. revert vs H. induction sk as [|p sk IH]; intros vs H; inversion H as [|u v lu lv E F]; subst; constructor; [|apply IH, F]. destruct E as [E1 E2]. split; [exact E1|apply on_ruling_line, E2].
Qed.

Record roof_facts (r : @palmRoof Rnum) (up : R) : Prop := {
  rf_pr : prPlaneR r = planeRight 0; rf_pl : prPlaneL r = planeLeft 0; rf_up : prRaise r = P 0 0 up;
  rf_b : Y (prBG r) = - m; rf_f : Y (prFG r) = - (m + dp);
  rf_l : forall v, In v (prL r) -> exists p, profile c 0 p /\ on_ruling c up p v /\ - X v * ca = hw (Y v) /\ Z v <= pa_height c - fh /\ ff - fh < Z v;
  rf_r : forall v, In v (prR r) -> exists p, profile c 0 p /\ on_ruling c up p v /\ X v * ca = hw (Y v) /\ Z v <= pa_height c - fh /\ ff - fh < Z v;
  rf_top : exists v, In v (prL r) /\ Z v = pa_height c - fh;
  rf_back : exists v, In v (prL r) /\ Y v = - m;
  rf_front : exists v, In v (prL r) /\ Y v = - (m + dp) }.

Lemma forall2_hd {A B} (Q : A -> B -> Prop) l l' d d' : Forall2 Q l l' -> l <> [] -> In (hd d' l') l' /\ Q (hd d l) (hd d' l').
Proof. intros F N. destruct F as [|x y l l' E F]; [contradiction|]. split; [left; reflexivity|exact E]. Qed.
Lemma forall2_last {A B} (Q : A -> B -> Prop) l l' d d' : Forall2 Q l l' -> l <> [] -> In (last l' d') l' /\ Q (last l d) (last l' d').
Proof.
  intros F. induction F as [|x y l l' E F IH]; intros N; [contradiction|]. destruct F as [|x2 y2 l2 l2' E2 F2].
  - split; [left; reflexivity|exact E].
  - destruct (IH ltac:(discriminate)) as [I1 I2]. split; [right; exact I1|exact I2].
Qed.
Lemma forall2_in_r {A B} (Q : A -> B -> Prop) l l' y : Forall2 Q l l' -> In y l' -> exists x, In x l /\ Q x y.
Proof. intros F. induction F as [|u v l l' E F IH]; intros I; [destruct I|]. destruct I as [<-|I]; [exists u; split; [left; reflexivity|exact E]|]. destruct (IH I) as (x & I1 & I2). exists x. split; [right; exact I1|exact I2]. Qed.
Lemma forall2_in_l {A B} (Q : A -> B -> Prop) l l' x : Forall2 Q l l' -> In x l -> exists y, In y l' /\ Q x y.
Proof. intros F. induction F as [|u v l l' E F IH]; intros I; [destruct I|]. destruct I as [<-|I]; [exists v; split; [left; reflexivity|exact E]|]. destruct (IH I) as (y & I1 & I2). exists y. split; [right; exact I1|exact I2]. Qed.

Lemma roofs_made r : palmRoofs q c thumb pinky = Ok r -> exists up, roof_facts r up.
Proof.
  intros H. pose proof eps_pos as EP. pose proof ca_pos as CA. pose proof sa_nn as SA. pose proof PI_RGT_0 as PP. destruct SP as [S1 S2 S3 S4 S5 S6 S7 S8 S9 S10]. unfold palmRoofs in H. cbv zeta in H. fold o in H.
  apply bind_ok in H. destruct H as (pl & E1 & H). apply bind_ok in H. destruct H as (pr & E2 & H). apply bind_ok in H. destruct H as (spine & E3 & H).
  apply bind_ok in H. destruct H as (rl & E4 & H). apply bind_ok in H. destruct H as (rr & E5 & H). apply bind_ok in H. destruct H as (l0 & E6 & H). apply bind_ok in H. destruct H as (l1 & E7 & H).
  apply bind_ok in H. destruct H as (mx & E8 & H). apply bind_ok in H. destruct H as (mn & E9 & H). destruct (nleb (pa_height c) _) eqn:CK in H; [discriminate|]. apply Ok_inj in H. subst r.
  change (newPlane (P (- o) 0 0) (P (- ca) (- sa) 0) = Ok pl) in E1. apply (newPlane_unit _ _ _ unit_nl) in E1. change (newPlane (P o 0 0) (P ca (- sa) 0) = Ok pr) in E2. apply (newPlane_unit _ _ _ unit_n) in E2.
  assert (EPR : pr = planeRight 0). { rewrite E2. unfold planeRight. f_equal. f_equal; ring. } assert (EPL : pl = planeLeft 0). { rewrite E1. unfold planeLeft. f_equal. f_equal; ring. } clear E1 E2. subst pl pr.
  assert (RF0 : 0 <= pa_roofFillet c) by lra. assert (RF1 : pa_roofFillet c - 0 = 0 \/ eps <= pa_roofFillet c - 0) by lra.
  destruct (spine_form q c S1 S5 0 spine (Rle_refl 0) RF0 RF1 E3) as (sk & -> & NE & IN & HD & LA). rewrite Rminus_0_r in HD, LA.
  apply cut_rulings in E4. apply cut_rulings in E5.
  assert (PX : forall p, In p sk -> - (m + dp) <= X p <= - m). { intros p I. pose proof (profile_ends c 0 p S1 S5 ltac:(lra) (IN p I)). unfold m, dp. lra. }
  pose (up := pa_height c - fh - mx).
  assert (RAISE : forall p v, on_ruling c 0 p v -> on_ruling c up p (vadd v (V (nZ 0) (nZ 0) (up : @num Rnum)))).
  { intros p v [A B]. destruct v as [x y z]. unfold on_ruling, vadd, X, Y, Z in *. cbn [vx vy vz] in *. rn. split; [lra|]. rewrite <- B. ring. }
  assert (ST : 0 <= sin (pa_tentAngle c)) by (apply sin_ge_0; lra). assert (CT : 0 < cos (pa_tentAngle c)) by (apply cos_gt_0; lra).
  apply maxList_spec in E8. destruct E8 as [MI MX].
  assert (LZ : forall v, In v rl -> Z v <= mx). { intros v I. apply MX. apply (in_map (@vz Rnum)) in I. exact I. }
  assert (HW0 : forall y, - (m + dp) <= y -> 0 <= hw y). { intros y HY. apply Rle_trans with (hw (- (m + dp))); [|apply hw_mono, HY]. unfold hw. assert (0 <= pa_floorContact c) by lra. fold m dp in S10. lra. }
  assert (RZ : forall v, In v rr -> Z v <= mx).
  { intros v I. destruct (forall2_in_r _ _ _ v E5 I) as (p & Ip & OPv & ORv). destruct (forall2_in_l _ _ _ p E4 Ip) as (w & Iw & OPw & ORw). apply on_right in OPv. apply on_left in OPw. specialize (LZ w Iw).
    destruct ORv as [Yv Zv]. destruct ORw as [Yw Zw]. rewrite Yv in OPv. rewrite Yw in OPw. specialize (HW0 (X p) (proj1 (PX p Ip))).
    assert (XX : X w <= X v) by (apply (Rmult_le_reg_r ca); [exact CA|lra]). assert (Z v <= Z w); [|lra]. apply (Rmult_le_reg_r (cos (pa_tentAngle c))); [exact CT|]. assert (X w * sin (pa_tentAngle c) <= X v * sin (pa_tentAngle c)) by (apply Rmult_le_compat_r; lra). lra. }
  apply minList_spec in E9. destruct E9 as [_ MN].
  assert (LOW : ff - fh < mn). { match type of CK with nleb _ ?e = false => change (Rleb (pa_height c) (pa_height c - mn - pa_floorHeight c + pa_floorFillet c) = false) in CK end. apply Rleb_false in CK. unfold ff, fh. lra. }
  change (@nsub Rnum (nsub (pa_height c) (pa_floorHeight c)) mx) with up in *.
  assert (SHZ : forall v, Z (vadd v (V (nZ 0) (nZ 0) (up : @num Rnum))) = Z v + up) by (intros v; reflexivity). assert (SHX : forall v, X (vadd v (V (nZ 0) (nZ 0) (up : @num Rnum))) = X v) by (intros v; unfold vadd, X; cbn [vx]; rn; ring). assert (SHY : forall v, Y (vadd v (V (nZ 0) (nZ 0) (up : @num Rnum))) = Y v) by (intros v; unfold vadd, Y; cbn [vy]; rn; ring).
  exists up. constructor; cbn [prPlaneR prPlaneL prRaise prBG prFG prL prR]; try reflexivity.
  - unfold Y. cbn [vy]. destruct (forall2_hd _ _ _ vzero vzero E4 NE) as [_ [_ [K _]]]. destruct (first_is _ _ E6) as (rest & ER). rewrite ER in K. cbn [hd] in K. fold (Y l0). rewrite K, HD. unfold along, back_centre, P, X. cbn [vx]. rewrite cos_0. unfold m. ring.
  - unfold Y. cbn [vy]. destruct (forall2_last _ _ _ vzero vzero E4 NE) as [_ [_ [K _]]]. rewrite (end_is _ _ vzero E7) in K. fold (Y l1). rewrite K. eapply eq_trans; [exact (f_equal X LA)|]. unfold along, P, X. cbn [vx]. rewrite cos_PI. unfold front_centre, fillet_pitch, P, X. cbn [vx]. unfold back_centre, P. cbn [vx]. unfold X. cbn [vx]. unfold m, dp. field. pose proof (cos_tilt c S1). lra.
  - intros v I. unfold etranslated in I. assert (I' := I). apply in_map_iff in I. destruct I as (v0 & <- & I). destruct (forall2_in_r _ _ _ v0 E4 I) as (p & Ip & OPv & ORv). apply on_left in OPv. exists p. split; [apply IN, Ip|]. split; [apply RAISE, ORv|]. rewrite SHX, SHY, SHZ. split; [lra|].
    pose proof (LZ v0 I). split; [unfold up; lra|]. assert (mn <= Z v0 + up); [|lra]. rewrite <- SHZ. apply MN. change (In (Z (vadd v0 (V (nZ 0) (nZ 0) (up : @num Rnum)))) (map Z (etranslated rl (V (nZ 0) (nZ 0) (up : @num Rnum)) ++ etranslated rr (V (nZ 0) (nZ 0) (up : @num Rnum))))). apply in_map. apply in_or_app. left. exact I'.
  - intros v I. unfold etranslated in I. assert (I' := I). apply in_map_iff in I. destruct I as (v0 & <- & I). destruct (forall2_in_r _ _ _ v0 E5 I) as (p & Ip & OPv & ORv). apply on_right in OPv. exists p. split; [apply IN, Ip|]. split; [apply RAISE, ORv|]. rewrite SHX, SHY, SHZ. split; [lra|].
    pose proof (RZ v0 I). split; [unfold up; lra|]. assert (mn <= Z v0 + up); [|lra]. rewrite <- SHZ. apply MN. change (In (Z (vadd v0 (V (nZ 0) (nZ 0) (up : @num Rnum)))) (map Z (etranslated rl (V (nZ 0) (nZ 0) (up : @num Rnum)) ++ etranslated rr (V (nZ 0) (nZ 0) (up : @num Rnum))))). apply in_map. apply in_or_app. right. exact I'.
  - apply in_map_iff in MI. destruct MI as (w & EW & IW). exists (vadd w (V (nZ 0) (nZ 0) (up : @num Rnum))). split; [unfold etranslated; apply (in_map (fun p => vadd p (V (nZ 0) (nZ 0) (up : @num Rnum)))), IW|]. rewrite SHZ. unfold Z. rewrite EW. unfold up. ring.
  - destruct (forall2_hd _ _ _ vzero vzero E4 NE) as [IH [_ [K _]]]. exists (vadd (hd vzero rl) (V (nZ 0) (nZ 0) (up : @num Rnum))). split; [unfold etranslated; apply (in_map (fun p => vadd p (V (nZ 0) (nZ 0) (up : @num Rnum)))), IH|]. rewrite SHY, K, HD. unfold along, back_centre, P, X. cbn [vx]. rewrite cos_0. unfold m. ring.
  - destruct (forall2_last _ _ _ vzero vzero E4 NE) as [IH [_ [K _]]]. exists (vadd (last rl vzero) (V (nZ 0) (nZ 0) (up : @num Rnum))). split; [unfold etranslated; apply (in_map (fun p => vadd p (V (nZ 0) (nZ 0) (up : @num Rnum)))), IH|]. rewrite SHY, K. eapply eq_trans; [exact (f_equal X LA)|]. unfold along, P, X. cbn [vx]. rewrite cos_PI. unfold front_centre, fillet_pitch, P, X. cbn [vx]. unfold back_centre, P. cbn [vx]. unfold X. cbn [vx]. unfold m, dp. field. pose proof (cos_tilt c S1). lra.
Qed.
End Box.
