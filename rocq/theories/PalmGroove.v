(** The groove and the feet of the palm rest. *)
From Coq Require Import Reals Lra Psatz ZArith List Bool Arith Lia.
From Verif Require Import Num GeoModel EdgeModel GeoSpec GeoMat GeoPlane GeoCirc ArcModel ArcSpec ArcProof ArcCorner ArcShape PartProof CableProof MeshModel MeshFace LayoutModel BossModel PlanModel PlanSpec2 WallProof BracketModel
  BumperModel PalmModel PalmSpec PalmShape PalmBox PalmNotch.
Import ListNotations.
Open Scope R_scope.

Section Groove.
Variables (q : @quality Rnum) (c : @palm_cfg Rnum) (thumb pinky : pt).
Let o : R := @ndiv Rnum (vmag (vsub pinky thumb)) (nZ 2).
Hypothesis SP : sane_palm c o.
Let a : R := pa_taperAngle c.
Let ca : R := cos a.
Let sa : R := sin a.
Let m : R := pa_bodyMargin c.
Let dp : R := pa_depth c.
Let fh : R := pa_floorHeight c.
Let hw (y : R) : R := half_width c o y.
Let CA : 0 < ca := ca_pos c thumb pinky SP.
Let SA : 0 <= sa := sa_nn c thumb pinky SP.
Let U1 : ca * ca + sa * sa = 1 := unit_a c.

(* lines that were raised *)
Definition raised (up : R) (p : pt) : @line Rnum := mkLine (vadd (lpos (ruling c p)) (V (nZ 0) (nZ 0) (up : @num Rnum))) (ldir (ruling c p)).
Lemma ruling_wf p : wf_line (ruling c p).
Proof. unfold wf_line, ruling, unit_vec, inner, P, X, Y, Z. cbn [ldir vx vy vz]. pose proof (sin2_cos2 (pa_tentAngle c)) as Q. unfold Rsqr in Q. lra. Qed.
Lemma on_raised up p v : on_line (raised up p) v -> on_ruling c up p v.
Proof.
  intros (k & ->). unfold raised, ruling, on_ruling. cbn [lpos ldir]. pose proof (sin2_cos2 (pa_tentAngle c)) as Q. unfold Rsqr in Q. destruct p as [p1 p2 p3].
  assert (K : p2 * (sin (pa_tentAngle c) * sin (pa_tentAngle c) + cos (pa_tentAngle c) * cos (pa_tentAngle c)) = p2) by (rewrite Q; ring).
  unfold plus, scaled, vadd, P, X, Y, Z. cbn [vx vy vz]. rn. split; [ring|]. lra.
Qed.
Lemma raise_all up sk ls : mapM (fun l => ltranslated l (@V Rnum (nZ 0) (nZ 0) up)) (map (ruling c) sk) = Ok ls -> ls = map (raised up) sk.
Proof.
  intros H. apply mapM_ok in H. revert ls H. induction sk as [|p sk IH]; intros ls H; inversion H as [|u v lu lv E F]; subst; [reflexivity|]. cbn [map]. f_equal; [|apply IH, F].
  exact (translated_is _ _ _ (ruling_wf p) E).
Qed.
Lemma cut_raised pl up sk vs : cut pl (map (raised up) sk) = Ok vs -> Forall2 (fun p v => on_plane pl v /\ on_ruling c up p v) sk vs.
Proof.
  intros H. apply cut_lines in H. revert vs H. induction sk as [|p sk IH]; intros vs H; inversion H as [|u v lu lv E F]; subst; constructor; [|apply IH, F]. destruct E as [E1 E2]. split; [exact E1|apply on_raised, E2].
Qed.

(* a rail: the points of the profile i below the roof, raised by up, at distance d inside the right (s = 1) or left (s = -1) side, between
   two points on the floor *)
Definition rail_pt (up i s d : R) (v : pt) : Prop := exists p, profile c i p /\ on_ruling c up p v /\ s * X v * ca = hw (Y v) - d.
Definition ground_pt (s d y : R) (v : pt) : Prop := Y v = y /\ Z v = - fh /\ s * X v * ca = hw y - d.
Definition rail (up i s d : R) (l : list pt) : Prop :=
  exists g0 inner g1, l = g0 :: inner ++ [g1] /\ ground_pt s d (- m - i) g0 /\ ground_pt s d (- (m + dp) + i) g1 /\ inner <> [] /\ forall v, In v inner -> rail_pt up i s d v.

Lemma ends_x i : X (along (back_centre c) (pa_roofFillet c - i) 0) = - m - i /\ X (along (front_centre c) (pa_roofFillet c - i) PI) = - (m + dp) + i.
Proof.
  pose proof (cos_tilt c (sp_tilt c o SP)) as CT. split.
  - unfold along, back_centre, P, X. cbn [vx]. rewrite cos_0. unfold m. ring.
  - unfold along, P, X. cbn [vx]. rewrite cos_PI. unfold front_centre, fillet_pitch, P, X. cbn [vx]. unfold back_centre, P. cbn [vx]. unfold X. cbn [vx]. unfold m, dp. field. lra.
Qed.
Lemma rail_made pl s d i up ls ls' vs vs' : 0 <= i -> i <= pa_roofFillet c -> pa_roofFillet c - i = 0 \/ eps <= pa_roofFillet c - i -> (forall v, on_plane pl v -> s * X v * ca = hw (Y v) - d) ->
  roofSpine q c i = Ok ls -> mapM (fun l => ltranslated l (@V Rnum (nZ 0) (nZ 0) up)) ls = Ok ls' -> cut pl ls' = Ok vs -> grounded c vs = Ok vs' -> rail up i s d vs'.
Proof.
  intros I0 I1 I2 OP E1 E2 E3 E4. destruct (spine_form q c (sp_tilt c o SP) (sp_depth c o SP) i ls I0 I1 I2 E1) as (sk & -> & NE & IN & HD & LA). apply raise_all in E2. subst ls'. apply cut_raised in E3.
  unfold grounded in E4. cbv zeta in E4. apply bind_ok in E4. destruct E4 as (u0 & P0 & E4). apply bind_ok in E4. destruct E4 as (u1 & P1 & E4). apply Ok_inj in E4. subst vs'. destruct (ends_x i) as [X0 X1].
  exists (vsub (vxy u0) (V (nZ 0) (nZ 0) (pa_floorHeight c))), vs, (vsub (vxy u1) (V (nZ 0) (nZ 0) (pa_floorHeight c))). split; [reflexivity|].
  assert (GR : forall v y, Y v = y -> s * X v * ca = hw (Y v) - d -> ground_pt s d y (vsub (vxy v) (V (nZ 0) (nZ 0) (pa_floorHeight c)))).
  { intros v y EY EX. subst y. destruct v as [x y z]. unfold ground_pt, vsub, vxy, X, Y, Z in *. cbn [vx vy vz] in *. rn. fold fh. rewrite !Rminus_0_r. split; [reflexivity|]. split; [ring|exact EX]. }
  split; [|split; [|split]].
  - destruct (forall2_hd _ _ _ vzero vzero E3 NE) as [_ [K1 [K2 _]]]. destruct (first_is _ _ P0) as (rest & ER). rewrite ER in K1, K2. cbn [hd] in K1, K2. apply GR; [|apply OP, K1]. rewrite K2. eapply eq_trans; [exact (f_equal X HD)|exact X0].
  - destruct (forall2_last _ _ _ vzero vzero E3 NE) as [_ [K1 [K2 _]]]. rewrite (end_is _ _ vzero P1) in K1, K2. apply GR; [|apply OP, K1]. rewrite K2. eapply eq_trans; [exact (f_equal X LA)|exact X1].
  - intros ->. discriminate.
  - intros v I. destruct (forall2_in_r _ _ _ v E3 I) as (p & Ip & K1 & K2). exists p. split; [apply IN, Ip|]. split; [exact K2|apply OP, K1].
Qed.
Lemma rail_first up i s d l v : rail up i s d l -> pyidx l 0 = Ok v -> ground_pt s d (- m - i) v.
Proof. intros (g0 & ii & g1 & -> & G0 & G1 & _) H. apply first_is in H. destruct H as (r & E). injection E as <- _. exact G0. Qed.
Lemma rail_last up i s d l v : rail up i s d l -> pyidx l (-1)%Z = Ok v -> ground_pt s d (- (m + dp) + i) v.
Proof. intros (g0 & ii & g1 & -> & G0 & G1 & _) H. apply (end_is _ _ vzero) in H. change (g0 :: ii ++ [g1]) with ((g0 :: ii) ++ [g1]) in H. rewrite last_last in H. subst v. exact G1. Qed.

(* every point of a rail: on the floor at an end, or on the profile *)
Definition rail_any (up i s d : R) (v : pt) : Prop := ground_pt s d (- m - i) v \/ ground_pt s d (- (m + dp) + i) v \/ rail_pt up i s d v.
Lemma rail_in up i s d l v : rail up i s d l -> In v l -> rail_any up i s d v.
Proof.
  intros (g0 & ii & g1 & -> & G0 & G1 & _ & IN) [<-|I]; [left; exact G0|]. apply in_app_or in I. destruct I as [I|[<-|[]]]; [right; right; apply IN, I|right; left; exact G1].
Qed.
Lemma pyidx_in {A} (l : list A) i x : pyidx l i = Ok x -> In x l.
Proof.
  unfold pyidx. intros H. match type of H with (if ?b then _ else _) = _ => destruct b end; [|]; try discriminate; destruct (nth_error l _) eqn:E; try discriminate; apply Ok_inj in H; subst; eapply nth_error_In; exact E.
Qed.

(* the shape of a clamp *)
Lemma clamp_made (size s da dd y : R) (p0 p1 p2 p3 : pt) mm : ground_pt s da y p0 -> ground_pt s dd y p3 -> s * s = 1 -> 0 < size -> addClamp size p0 p1 p2 p3 = Ok mm ->
  exists e : R, (e = 1 /\ s * dd < s * da \/ e = -1 /\ s * da < s * dd) /\ forall v, In v (mesh_points mm) -> v = p0 \/ v = p1 \/ v = p2 \/ v = p3 \/
    Y v = y + e * size /\ Z v = - fh + size /\ (s * X v * ca = hw y - (4 / 5 * da + 1 / 5 * dd) \/ s * X v * ca = hw y - (1 / 5 * da + 4 / 5 * dd)).
Proof.
  intros (Y0 & Z0 & X0) (Y3 & Z3 & X3) S1 SZ H. unfold addClamp in H. cbv zeta in H. apply bind_ok in H. destruct H as (u & E & H). apply Ok_inj in H. subst mm.
  assert (DX : X p3 - X p0 = s * (da - dd) / ca). { apply (Rmult_eq_reg_r ca); [|lra]. replace (s * (da - dd) / ca * ca) with (s * (da - dd)) by (field; lra). replace ((X p3 - X p0) * ca) with ((s * s) * (X p3 - X p0) * ca) by (rewrite S1; ring).
    replace (s * s * (X p3 - X p0) * ca) with (s * (s * X p3 * ca - s * X p0 * ca)) by ring. rewrite X3, X0. ring. }
  assert (EO : vortho2D (vsub p3 p0) = P 0 (X p3 - X p0) 0). { destruct p0 as [a1 a2 a3], p3 as [b1 b2 b3]. unfold vortho2D, vsub, P, X, Y in *. cbn [vx vy vz] in *. rn. f_equal. lra. }
  rewrite EO in E. apply vnorm_ok in E. destruct E as [NO EU].
  assert (LN : len (P 0 (X p3 - X p0) 0) = Rabs (X p3 - X p0)). { unfold len, inner. change (X (P ?x _ _)) with x. change (Y (P _ ?x _)) with x. change (Z (P _ _ ?x)) with x. rewrite <- sqrt_Rsqr_abs. f_equal. unfold Rsqr. ring. }
  assert (ND : X p3 - X p0 <> 0). { intros C. apply NO. rewrite C. reflexivity. }
  set (e := if Rlt_dec 0 (X p3 - X p0) then 1 else -1).
  assert (EU2 : u = P 0 e 0). { rewrite EU, LN. unfold scaled, P, X, Y, Z. cbn [vx vy vz]. fold (X p3) (X p0). unfold e. destruct (Rlt_dec 0 (X p3 - X p0)) as [C|C]; [rewrite Rabs_right by lra|rewrite Rabs_left by lra]; unfold X in *; f_equal; field; lra. }
  exists e. split.
  - unfold e. destruct (Rlt_dec 0 (X p3 - X p0)) as [C|C]; [left|right]; (split; [reflexivity|]); rewrite DX in C.
    + apply (Rmult_lt_compat_r ca) in C; [|exact CA]. replace (s * (da - dd) / ca * ca) with (s * da - s * dd) in C by (field; lra). lra.
    + assert (C2 : s * (da - dd) / ca < 0) by (rewrite <- DX; lra). apply (Rmult_lt_compat_r ca) in C2; [|exact CA]. replace (s * (da - dd) / ca * ca) with (s * da - s * dd) in C2 by (field; lra). lra.
  - intros v I. cbn [mesh_points] in I. clear EU. subst u.
    assert (CP : forall k l : R, k + l = 1 -> let w := vadd (vadd (vadd (@vscale Rnum p0 k) (@vscale Rnum p3 l)) (@vscale Rnum (P 0 e 0) size)) (@V Rnum (nZ 0) (nZ 0) size) in Y w = y + e * size /\ Z w = - fh + size /\ s * X w * ca = hw y - (k * da + l * dd)).
    { intros k l KL w. assert (WX : X w = k * X p0 + l * X p3). { unfold w. destruct p0 as [a1 a2 a3], p3 as [b1 b2 b3]. unfold vadd, vscale, P, X. cbn [vx vy vz]. rn. ring. }
      assert (WY : Y w = (k + l) * y + e * size). { unfold w, vadd, vscale, P, Y. cbn [vx vy vz]. rn. fold (Y p0) (Y p3). rewrite Y0, Y3. ring. }
      assert (WZ : Z w = (k + l) * - fh + size). { unfold w. unfold vadd, vscale, P, Z. cbn [vx vy vz]. rn. fold (Z p0) (Z p3). rewrite Z0, Z3. ring. }
      rewrite WX, WY, WZ, KL. split; [ring|]. split; [ring|]. replace (s * (k * X p0 + l * X p3) * ca) with (k * (s * X p0 * ca) + l * (s * X p3 * ca)) by ring. rewrite X0, X3. replace (k * (hw y - da) + l * (hw y - dd)) with ((k + l) * hw y - (k * da + l * dd)) by ring. rewrite KL. ring. }
    cbn [app In] in I. destruct I as [<-|[<-|[<-|[<-|I]]]]; [tauto|tauto|tauto|tauto|]. right. right. right. right.
    assert (Q1 : 4 / 5 + 1 / 5 = 1) by field. assert (Q2 : 1 / 5 + 4 / 5 = 1) by field. destruct (CP _ _ Q1) as (W1 & W2 & W3). destruct (CP _ _ Q2) as (V1 & V2 & V3).
    destruct I as [<-|[<-|[<-|[<-|[]]]]]; first [split; [exact W1|]; split; [exact W2|]; left; exact W3|split; [exact V1|]; split; [exact V2|]; right; exact V3].
Qed.

Lemma hw_up y y' : y <= y' -> hw y <= hw y'.
Proof. intros H. unfold hw, half_width. fold a ca sa. pose proof (Rmult_le_compat_r _ _ _ SA H). lra. Qed.
Section WithGroove.
Variable g : @groove_cfg Rnum.
Variable up : R.
Hypothesis SG : sane_groove c o g.
Let rm : R := gr_roofMargin g.
Let gh : R := gr_height g.
Let w : R := gr_width g.
Let gc := groove_corner c o up g.

Lemma two_sides s x h d : s = 1 \/ s = -1 -> s * x * ca = h - d -> 0 <= d <= 2 * h -> x * ca <= h /\ - x * ca <= h.
Proof. intros [->| ->] H D; lra. Qed.
Lemma rail_corner i s d v : i = rm \/ i = rm + gh -> 0 <= gh -> s = 1 \/ s = -1 -> 0 <= d <= w -> rail_any up i s d v -> gc v.
Proof.
  intros HI GH HS HD HR. destruct SG as (G1 & G2 & G3 & G4 & G5 & G6 & G7). fold rm gh w in G1, G2, G3, G4, G5, G6, G7. pose proof eps_pos as EP. pose proof (sp_depth c o SP) as DD. fold dp in DD.
  assert (I0 : 0 <= i <= pa_roofFillet c) by (destruct HI; lra).
  assert (FIT : forall y, - (m + dp) + i <= y <= - m - i -> s * X v * ca = hw y - d -> Y v = y -> footprint c o v).
  { intros y HY HX <-. assert (HM : hw (- (m + dp)) <= hw (Y v)) by (apply hw_up; lra). unfold hw in HM at 1. fold m dp in G4. destruct (two_sides s (X v) (hw (Y v)) d HS HX ltac:(lra)) as [F1 F2]. split; [exact F1|]. split; [exact F2|]. fold m dp. lra. }
  destruct HR as [(Y0 & Z0 & X0)|[(Y0 & Z0 & X0)|(p & PR & OR & X0)]].
  - split; [apply (FIT (- m - i)); [lra|exact X0|exact Y0]|]. left. fold fh gh. lra.
  - split; [apply (FIT (- (m + dp) + i)); [lra|exact X0|exact Y0]|]. left. fold fh gh. lra.
  - destruct OR as [YP ZP]. pose proof (profile_ends c i p (sp_tilt c o SP) (sp_depth c o SP) I0 PR) as PE. fold m dp in PE.
    split; [apply (FIT (Y v)); [lra|exact X0|reflexivity]|]. right. exists p. split; [destruct HI as [->| ->]; [left|right]; exact PR|]. split; assumption.
Qed.
Lemma clamp_corner (size s da dd y : R) p0 p1 p2 p3 mm : s = 1 \/ s = -1 -> 0 < size <= gh -> 0 < gh -> gc p0 -> gc p1 -> gc p2 -> gc p3 ->
  (da = 0 /\ dd = w \/ da = w /\ dd = 0) -> (y = - m - (rm + gh) /\ s * dd < s * da \/ y = - (m + dp) + (rm + gh) /\ s * da < s * dd) ->
  ground_pt s da y p0 -> ground_pt s dd y p3 -> addClamp size p0 p1 p2 p3 = Ok mm -> forall v, In v (mesh_points mm) -> gc v.
Proof.
  intros HS HZ GH C0 C1 C2 C3 HD HY Q0 Q3 H v I. destruct SG as (G1 & G2 & G3 & G4 & G5 & G6 & G7). fold rm gh w in G1, G2, G3, G4, G5, G6, G7. pose proof eps_pos as EP. pose proof (sp_depth c o SP) as DD. fold dp in DD.
  assert (S1 : s * s = 1) by (destruct HS as [->| ->]; lra). destruct (clamp_made size s da dd y p0 p1 p2 p3 mm Q0 Q3 S1 (proj1 HZ) H) as (e & HE & IN).
  destruct (IN v I) as [->|[->|[->|[->|(YV & ZV & XV)]]]]; try assumption. fold m dp in G4. fold a sa in G7.
  assert (SS : size * sa <= gh * sa) by (apply Rmult_le_compat_r; lra).
  assert (BY : - (m + dp) <= Y v <= - m) by (rewrite YV; destruct HY as [[-> HY]|[-> HY]]; destruct HE as [[-> HE]|[-> HE]]; lra).
  assert (HM : hw (- (m + dp)) <= hw (Y v)) by (apply hw_up; lra). unfold hw in HM at 1.
  assert (HN : hw (- (m + dp)) <= hw y) by (apply hw_up; destruct HY as [[-> HY]|[-> HY]]; lra). unfold hw in HN at 1.
  assert (XX : exists k : R, s * X v * ca = hw (Y v) - k /\ 0 <= k <= 2 * hw (Y v)).
  { assert (EH : hw (Y v) = hw y + e * size * sa) by (rewrite YV; unfold hw, half_width; fold a ca sa; ring).
    assert (EE : e = 1 /\ 0 <= size * sa \/ e = -1 /\ size * sa <= w / 5 ) by (destruct HE as [[-> _]|[-> _]]; [left|right]; (split; [reflexivity|]); [apply Rmult_le_pos; lra|lra]).
    assert (KK : exists k0, s * X v * ca = hw y - k0 /\ w / 5 <= k0 <= 4 / 5 * w). { destruct XV as [XV|XV]; eexists; (split; [exact XV|]); destruct HD as [[-> ->]|[-> ->]]; lra. }
    destruct KK as (k0 & K1 & K2). exists (k0 + e * size * sa). split; [rewrite K1, EH; ring|]. destruct EE as [[-> EE]|[-> EE]]; lra. }
  destruct XX as (k & XE & KR). destruct (two_sides s (X v) (hw (Y v)) k HS XE KR) as [F1 F2]. split; [|left; fold fh gh; lra]. split; [exact F1|]. split; [exact F2|]. fold m dp. exact BY.
Qed.

Lemma pleft_is d : planeLeft c thumb pinky d = mkPlane (P (- (o - d * ca)) (d * sa) 0) (P (- ca) (- sa) 0). Proof. reflexivity. Qed.
Lemma left_inner pl : newPlane (vsub (ppos (planeLeft c thumb pinky 0)) (vscale (pnormal (planeLeft c thumb pinky 0)) (gr_width g))) (pnormal (planeLeft c thumb pinky 0)) = Ok pl -> pl = planeLeft c thumb pinky w.
Proof.
  intros H. rewrite pleft_is in *. cbn [ppos pnormal] in H. apply (newPlane_unit _ _ _ (unit_nl c)) in H. rewrite H. f_equal. unfold vsub, vscale, P. cbn [vx vy vz]. rn. fold w. f_equal; ring.
Qed.
Lemma right_inner pl : newPlane (vsub (ppos (planeRight c thumb pinky 0)) (vscale (pnormal (planeRight c thumb pinky 0)) (gr_width g))) (pnormal (planeRight c thumb pinky 0)) = Ok pl -> pl = planeRight c thumb pinky w.
Proof.
  intros H. assert (E : planeRight c thumb pinky 0 = mkPlane (P (o - 0 * ca) (0 * sa) 0) (P ca (- sa) 0)) by reflexivity. rewrite E in H. cbn [ppos pnormal] in H. apply (newPlane_unit _ _ _ (unit_n c)) in H. rewrite H. unfold planeRight. fold o a ca sa. f_equal. unfold vsub, vscale, P. cbn [vx vy vz]. rn. fold w. f_equal; ring.
Qed.
Lemma side_right d v : on_plane (planeRight c thumb pinky d) v -> 1 * X v * ca = hw (Y v) - d.
Proof. intros H. apply on_right in H. rewrite Rmult_1_l. exact H. Qed.
Lemma side_left d v : on_plane (planeLeft c thumb pinky d) v -> -1 * X v * ca = hw (Y v) - d.
Proof. intros H. apply on_left in H. unfold hw, o. rewrite <- H. unfold ca, a. ring. Qed.
Lemma in_middle {A} (l : list A) x : In x (removelast (skipn 1 l)) -> In x l.
Proof.
  intros I. destruct l as [|u l]; [destruct I|]. cbn [skipn] in I. right. destruct l as [|v l]; [destruct I|]. rewrite (app_removelast_last v) by discriminate. apply in_or_app. left. exact I.
Qed.
Record groove_facts (gv : @grooveParts Rnum) : Prop := {
  gf_mesh : forall v, In v (mesh_points (gvMesh gv)) -> gc v; gf_faces : forall f v, In f (gvFaces gv) -> In v f -> gc v;
  gf_lt : forall v, In v (gvLT gv) -> rail_any up rm (-1) 0 v; gf_rt : forall v, In v (gvRT gv) -> rail_any up rm 1 0 v;
  gf_lg : forall v, In v (gvLG gv) -> gc v; gf_rg : forall v, In v (gvRG gv) -> gc v; gf_h : 0 <= gh }.

Lemma groove_made r gv : roof_facts c thumb pinky r up -> newGroove q c g r = Ok gv -> groove_facts gv.
Proof.
  intros RF H. pose proof SG as (G1 & G2 & G3 & G4 & G5 & G6 & G7). fold rm gh w in G1, G2, G3, G4, G5, G6, G7. pose proof eps_pos as EP. unfold newGroove in H. cbv zeta in H.
  destruct (nleb (gr_height g) (pa_floorFillet c)) eqn:CK; [discriminate|]. change (Rleb gh (pa_floorFillet c) = false) in CK. apply Rleb_false in CK. pose proof (sp_floor c o SP) as SF. assert (GH : 0 < gh) by lra.
  rewrite (rf_pr _ _ _ _ _ RF), (rf_pl _ _ _ _ _ RF), (rf_up _ _ _ _ _ RF) in H.
  apply bind_ok in H. destruct H as (st0 & ST0 & H). apply bind_ok in H. destruct H as (sg0 & SG0 & H). apply bind_ok in H. destruct H as (st & ST & H). apply bind_ok in H. destruct H as (sg & SGG & H).
  apply bind_ok in H. destruct H as (a1 & A1 & H). apply bind_ok in H. destruct H as (a2 & A2 & H). apply bind_ok in H. destruct H as (a3 & A3 & H). apply bind_ok in H. destruct H as (a4 & A4 & H).
  apply bind_ok in H. destruct H as (pli & PLI & H). apply bind_ok in H. destruct H as (pri & PRI & H). apply left_inner in PLI. apply right_inner in PRI. subst pli pri.
  apply bind_ok in H. destruct H as (a5 & A5 & H). apply bind_ok in H. destruct H as (a6 & A6 & H). apply bind_ok in H. destruct H as (a7 & A7 & H). apply bind_ok in H. destruct H as (a8 & A8 & H).
  apply bind_ok in H. destruct H as (lto & B1 & H). apply bind_ok in H. destruct H as (lgo & B2 & H). apply bind_ok in H. destruct H as (rto & B3 & H). apply bind_ok in H. destruct H as (rgo & B4 & H).
  apply bind_ok in H. destruct H as (lti & B5 & H). apply bind_ok in H. destruct H as (lgi & B6 & H). apply bind_ok in H. destruct H as (rti & B7 & H). apply bind_ok in H. destruct H as (rgi & B8 & H).
  assert (T0 : 0 <= rm) by lra. assert (T1 : rm <= pa_roofFillet c) by lra. assert (T2 : pa_roofFillet c - rm = 0 \/ eps <= pa_roofFillet c - rm) by lra.
  assert (U0 : 0 <= rm + gh) by lra. assert (U2 : rm + gh <= pa_roofFillet c) by lra. assert (U3 : pa_roofFillet c - (rm + gh) = 0 \/ eps <= pa_roofFillet c - (rm + gh)) by lra.
  assert (R1 := rail_made _ (-1) 0 rm up _ _ _ _ T0 T1 T2 (side_left 0) ST0 ST A1 B1). assert (R2 := rail_made _ (-1) 0 (rm + gh) up _ _ _ _ U0 U2 U3 (side_left 0) SG0 SGG A2 B2).
  assert (R3 := rail_made _ 1 0 rm up _ _ _ _ T0 T1 T2 (side_right 0) ST0 ST A3 B3). assert (R4 := rail_made _ 1 0 (rm + gh) up _ _ _ _ U0 U2 U3 (side_right 0) SG0 SGG A4 B4).
  assert (R5 := rail_made _ (-1) w rm up _ _ _ _ T0 T1 T2 (side_left w) ST0 ST A5 B5). assert (R6 := rail_made _ (-1) w (rm + gh) up _ _ _ _ U0 U2 U3 (side_left w) SG0 SGG A6 B6).
  assert (R7 := rail_made _ 1 w rm up _ _ _ _ T0 T1 T2 (side_right w) ST0 ST A7 B7). assert (R8 := rail_made _ 1 w (rm + gh) up _ _ _ _ U0 U2 U3 (side_right w) SG0 SGG A8 B8).
  clear A1 A2 A3 A4 A5 A6 A7 A8 B1 B2 B3 B4 B5 B6 B7 B8 ST ST0 SGG SG0.
  assert (RC : forall i s d l, rail up i s d l -> i = rm \/ i = rm + gh -> s = 1 \/ s = -1 -> 0 <= d <= w -> forall v, In v l -> gc v).
  { intros i s d l RL HI HS HD v I. apply (rail_corner i s d v HI ltac:(lra) HS HD). exact (rail_in _ _ _ _ _ _ RL I). }
  assert (ML : -1 = 1 \/ -1 = -1) by (right; reflexivity). assert (PL : 1 = 1 \/ 1 = -1) by (left; reflexivity). assert (D0 : 0 <= 0 <= w) by lra. assert (DW : 0 <= w <= w) by lra.
  assert (I1 : rm = rm \/ rm = rm + gh) by (left; reflexivity). assert (I2 : rm + gh = rm \/ rm + gh = rm + gh) by (right; reflexivity).
  pose proof (RC _ _ _ _ R1 I1 ML D0) as K1. pose proof (RC _ _ _ _ R2 I2 ML D0) as K2. pose proof (RC _ _ _ _ R3 I1 PL D0) as K3. pose proof (RC _ _ _ _ R4 I2 PL D0) as K4.
  pose proof (RC _ _ _ _ R5 I1 ML DW) as K5. pose proof (RC _ _ _ _ R6 I2 ML DW) as K6. pose proof (RC _ _ _ _ R7 I1 PL DW) as K7. pose proof (RC _ _ _ _ R8 I2 PL DW) as K8.
  apply bind_ok in H. destruct H as (cl & CL & H).
  assert (KC : forall v, In v (mesh_points cl) -> gc v).
  { destruct (nltb (Num := Rnum) (nZ 0) (gr_relClamp g)) eqn:CR.
    - change (Rltb 0 (gr_relClamp g) = true) in CR. apply Rltb_true in CR.
      assert (SZ : 0 < gh * gr_relClamp g <= gh). { split; [apply Rmult_lt_0_compat; lra|]. rewrite <- (Rmult_1_r gh) at 2. apply Rmult_le_compat_l; lra. }
      apply bind_ok in CL. destruct CL as (x0 & X0 & CL). apply bind_ok in CL. destruct CL as (x1 & X1 & CL). apply bind_ok in CL. destruct CL as (x2 & X2 & CL). apply bind_ok in CL. destruct CL as (x3 & X3 & CL). apply bind_ok in CL. destruct CL as (m1 & M1 & CL).
      apply bind_ok in CL. destruct CL as (y0 & Y0 & CL). apply bind_ok in CL. destruct CL as (y1 & Y1 & CL). apply bind_ok in CL. destruct CL as (y2 & Y2 & CL). apply bind_ok in CL. destruct CL as (y3 & Y3 & CL). apply bind_ok in CL. destruct CL as (m2 & M2 & CL).
      apply bind_ok in CL. destruct CL as (z0 & Z0 & CL). apply bind_ok in CL. destruct CL as (z1 & Z1 & CL). apply bind_ok in CL. destruct CL as (z2 & Z2 & CL). apply bind_ok in CL. destruct CL as (z3 & Z3 & CL). apply bind_ok in CL. destruct CL as (m3 & M3 & CL).
      apply bind_ok in CL. destruct CL as (w0 & W0 & CL). apply bind_ok in CL. destruct CL as (w1 & W1 & CL). apply bind_ok in CL. destruct CL as (w2 & W2 & CL). apply bind_ok in CL. destruct CL as (w3 & W3 & CL). apply bind_ok in CL. destruct CL as (m4 & M4 & CL). apply Ok_inj in CL. subst cl.
      assert (C1 : forall v, In v (mesh_points m1) -> gc v).
      { apply (clamp_corner _ (-1) 0 w (- m - (rm + gh)) x0 x1 x2 x3 m1 ML SZ GH (K2 _ (pyidx_in _ _ _ X0)) (K2 _ (pyidx_in _ _ _ X1)) (K6 _ (pyidx_in _ _ _ X2)) (K6 _ (pyidx_in _ _ _ X3)) (or_introl (conj eq_refl eq_refl))); [left; split; [reflexivity|lra]|exact (rail_first _ _ _ _ _ _ R2 X0)|exact (rail_first _ _ _ _ _ _ R6 X3)|exact M1]. }
      assert (C2 : forall v, In v (mesh_points m2) -> gc v).
      { apply (clamp_corner _ 1 w 0 (- m - (rm + gh)) y0 y1 y2 y3 m2 PL SZ GH (K8 _ (pyidx_in _ _ _ Y0)) (K8 _ (pyidx_in _ _ _ Y1)) (K4 _ (pyidx_in _ _ _ Y2)) (K4 _ (pyidx_in _ _ _ Y3)) (or_intror (conj eq_refl eq_refl))); [left; split; [reflexivity|lra]|exact (rail_first _ _ _ _ _ _ R8 Y0)|exact (rail_first _ _ _ _ _ _ R4 Y3)|exact M2]. }
      assert (C3 : forall v, In v (mesh_points m3) -> gc v).
      { apply (clamp_corner _ (-1) w 0 (- (m + dp) + (rm + gh)) z0 z1 z2 z3 m3 ML SZ GH (K6 _ (pyidx_in _ _ _ Z0)) (K6 _ (pyidx_in _ _ _ Z1)) (K2 _ (pyidx_in _ _ _ Z2)) (K2 _ (pyidx_in _ _ _ Z3)) (or_intror (conj eq_refl eq_refl))); [right; split; [reflexivity|lra]|exact (rail_last _ _ _ _ _ _ R6 Z0)|exact (rail_last _ _ _ _ _ _ R2 Z3)|exact M3]. }
      assert (C4 : forall v, In v (mesh_points m4) -> gc v).
      { apply (clamp_corner _ 1 0 w (- (m + dp) + (rm + gh)) w0 w1 w2 w3 m4 PL SZ GH (K4 _ (pyidx_in _ _ _ W0)) (K4 _ (pyidx_in _ _ _ W1)) (K8 _ (pyidx_in _ _ _ W2)) (K8 _ (pyidx_in _ _ _ W3)) (or_introl (conj eq_refl eq_refl))); [right; split; [reflexivity|lra]|exact (rail_last _ _ _ _ _ _ R4 W0)|exact (rail_last _ _ _ _ _ _ R8 W3)|exact M4]. }
      intros v I. cbn [meshes mesh_points] in I. repeat (apply in_app_or in I; destruct I as [I|I]); auto using in_middle; try (destruct I; fail).
    - apply Ok_inj in CL. subst cl. intros v I. cbn [meshes mesh_points] in I. repeat (apply in_app_or in I; destruct I as [I|I]); auto; destruct I. }
  do 16 (let u := fresh "u" in let E := fresh "E" in apply bind_ok in H; destruct H as (u & E & H); apply pyidx_in in E). apply Ok_inj in H. subst gv.
  constructor; cbn [gvMesh gvFaces gvLT gvLG gvRT gvRG].
  - intros v I. cbn [meshes mesh_points] in I. repeat (apply in_app_or in I; destruct I as [I|I]); auto; destruct I.
  - intros f v I J. destruct I as [<-|[<-|[<-|[<-|[]]]]]; try (apply in_app_or in J; destruct J as [J|J]); try (apply (proj2 (in_rev _ _)) in J); auto.
  - intros v I. apply (proj2 (in_rev _ _)) in I. exact (rail_in _ _ _ _ _ _ R1 I).
  - intros v I. apply (proj2 (in_rev _ _)) in I. exact (rail_in _ _ _ _ _ _ R3 I).
  - intros v I. repeat (destruct I as [<-|I]; [auto|]). destruct I.
  - intros v I. repeat (destruct I as [<-|I]; [auto|]). destruct I.
  - lra.
Qed.
End WithGroove.
End Groove.
