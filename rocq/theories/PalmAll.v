(** All corners of the palm rest. *)
From Coq Require Import Reals Lra Psatz ZArith List Bool Arith Lia.
From Verif Require Import Num GeoModel EdgeModel GeoSpec GeoMat GeoPlane GeoCirc ArcModel ArcSpec ArcProof ArcCorner ArcShape PartProof CableProof MeshModel MeshFace LayoutModel BossModel PlanModel PlanSpec2 WallProof BracketModel
  BumperModel BossProof PalmModel PalmSpec PalmShape PalmBox PalmNotch PalmGroove.
Import ListNotations.
Open Scope R_scope.

Section All.
Variables (q : @quality Rnum) (c : @palm_cfg Rnum) (thumb pinky : pt).
Let o : R := @ndiv Rnum (vmag (vsub pinky thumb)) (nZ 2).
Hypothesis SP : sane_palm c o.
Let a : R := pa_taperAngle c.
Let ca : R := cos a.
Let sa : R := sin a.
Let m : R := pa_bodyMargin c.
Let dp : R := pa_depth c.
Let fh : R := pa_floorHeight c.
Let ff : R := pa_floorFillet c.
Let fc : R := pa_floorContact c.
Let hr : R := pa_hitchRadius c.
Notation hw := (half_width c o).
Let CA : 0 < ca := ca_pos c thumb pinky SP.
Let SA : 0 <= sa := sa_nn c thumb pinky SP.
Let U1 : ca * ca + sa * sa = 1 := unit_a c.
Let HM := hw_up c thumb pinky SP : forall y y', y <= y' -> hw y <= hw y'.
Let yf : R := - (m + dp) + fc + fh.
Let box := palm_box c o.

Lemma wide y : - (m + dp) <= y -> fc + fh + hr <= hw y.
Proof. intros H. pose proof (sp_width c o SP) as W. fold m dp fc fh hr in W. pose proof (HM _ _ H). lra. Qed.

(* points of the fillets on the sides *)
Lemma side_box s v : s = 1 \/ s = -1 -> s * X v * ca = hw (Y v) -> - (m + dp) <= Y v <= - m -> - fh <= Z v <= pa_height c - fh -> box v.
Proof.
  intros HS HX HY HZ. pose proof (wide (Y v) (proj1 HY)) as W. pose proof (sp_hitch c o SP) as SH. pose proof eps_pos as EP. pose proof (sp_height c o SP) as SHT. pose proof (sp_contact c o SP) as SC. pose proof (sp_floor c o SP) as SF. fold hr in SH. fold fh ff in SHT. fold ff fc in SC. fold ff in SF.
  split; [|exact HZ]. destruct (two_sides c s (X v) (hw (Y v)) 0 HS ltac:(fold a ca; lra) ltac:(lra)) as [F1 F2]. split; [exact F1|]. split; [exact F2|exact HY].
Qed.
Lemma inner_box v d : X v * ca = hw (Y v) - d -> 0 <= d <= 2 * hw (Y v) -> - (m + dp) <= Y v <= - m -> - fh <= Z v <= pa_height c - fh -> box v.
Proof.
  intros HX HD HY HZ. split; [|exact HZ]. destruct (two_sides c 1 (X v) (hw (Y v)) d (or_introl eq_refl) ltac:(fold a ca; lra) HD) as [F1 F2]. split; [exact F1|]. split; [exact F2|exact HY].
Qed.
Lemma box_mirror v : box v -> box (vmirX v).
Proof. intros ((F1 & F2 & F3) & F4). destruct v as [x y z]. unfold box, palm_box, footprint, vmirX, X, Y, Z in *. cbn [vx vy vz] in *. rn. split; [|exact F4]. split; [lra|]. split; [lra|exact F3]. Qed.

(* the fillet lines, cut by the sides *)
Lemma fillet_side pl s ls vs y0 y1 : (forall v, on_plane pl v -> s * X v * ca = hw (Y v) - 0) -> s = 1 \/ s = -1 ->
  (forall l, In l ls -> exists y z, l = xline y z /\ y0 <= y <= y1 /\ - fh <= z <= - fh + ff) -> cut pl ls = Ok vs ->
  forall v, In v vs -> y0 <= Y v <= y1 /\ - fh <= Z v <= - fh + ff /\ s * X v * ca = hw (Y v).
Proof.
  intros OP HS HL H v I. apply cut_lines in H. destruct (forall2_in_r _ _ _ v H I) as (l & Il & O1 & O2). destruct (HL l Il) as (y & z & -> & BY & BZ). apply on_xline in O2. destruct O2 as [<- <-].
  split; [exact BY|]. split; [exact BZ|]. specialize (OP v O1). lra.
Qed.

(* the notch *)
Section WithNotch.
Variable no : @notch Rnum.
Hypothesis NF : notch_facts c thumb pinky no.
Hypothesis CHK : yf < - (pa_hitchDepth c + m).

Lemma facts : 0 < fh /\ 0 <= ff /\ ff <= fc /\ eps <= hr /\ hr <= pa_hitchDepth c /\ fh + ff <= pa_height c /\ yf + hr < - m /\ fc + fh + hr < dp.
Proof.
  pose proof (nf_fh _ _ _ _ NF) as FH. pose proof (sp_hitch c o SP) as SH. pose proof eps_pos as EP. pose proof (sp_height c o SP) as SHT. pose proof (sp_contact c o SP) as SC. pose proof (sp_floor c o SP) as SF.
  fold hr in SH. fold fh ff in SHT. fold ff fc in SC. fold ff in SF. fold fh in FH. assert (EY : yf = - (m + dp) + fc + fh) by reflexivity. pose proof CHK as CK. repeat split; try lra.
Qed.
Lemma rft_x : hr <= X (side_pt c thumb pinky (fc + fh) yf 0) * ca.
Proof. destruct facts as (F1 & F2 & F3 & F4 & F5 & F6 & F7 & F8). pose proof (side_pt_x c thumb pinky SP (fc + fh) yf 0) as E. fold o a ca in E. rewrite E. assert (YL : - (m + dp) <= yf) by (unfold yf; pose proof eps_pos; lra). pose proof (wide yf YL) as W. lra. Qed.
Lemma rft_pos : 0 < X (side_pt c thumb pinky (fc + fh) yf 0).
Proof. pose proof rft_x as H. destruct facts as (F1 & F2 & F3 & F4 & _). pose proof eps_pos. apply (Rmult_lt_reg_r ca); [exact CA|]. lra. Qed.
Lemma fillet_rg v : In v (noFilletRG no) -> box v.
Proof.
  intros I. destruct (nf_rg _ _ _ _ NF v I) as (BY & BZ & BX). fold m ff in BY. fold fh ff in BZ. fold o a ca in BX. fold fc fh in BX. destruct facts as (F1 & F2 & F3 & F4 & F5 & F6 & F7 & F8). pose proof kappa_range as KR. pose proof eps_pos as EP.
  assert (K1 : 0 <= (Z v + fh) * kappa <= ff) by (split; [apply Rmult_le_pos; lra|rewrite <- (Rmult_1_r ff); apply Rmult_le_compat; lra]).
  assert (YL : - (m + dp) <= Y v) by lra. pose proof (wide _ YL) as W. apply (inner_box v _ BX); lra.
Qed.
Lemma fillet_rt v : In v (noFilletRT no) -> box v.
Proof.
  intros I. destruct (nf_rt _ _ _ _ NF v I) as (BY & BZ & BX). fold m ff in BY. fold ff in BZ. fold o a ca in BX. fold fc fh in BX. destruct facts as (F1 & F2 & F3 & F4 & F5 & F6 & F7 & F8). pose proof kappa_range as KR. pose proof eps_pos as EP.
  assert (K1 : 0 <= Z v * kappa <= ff) by (split; [apply Rmult_le_pos; lra|rewrite <- (Rmult_1_r ff); apply Rmult_le_compat; lra]).
  assert (YL : - (m + dp) <= Y v) by lra. pose proof (wide _ YL) as W. apply (inner_box v _ BX); lra.
Qed.
(* the corner of radius r at the point f of the line at distance d inside the right side *)
Lemma round_corner (r d y z t : R) (v : pt) : 0 < r -> 0 <= d -> a <= t <= PI / 2 -> - (m + dp) <= y -> y + r <= - m -> d + r <= hw y -> - fh <= z <= pa_height c - fh ->
  X v = X (side_pt c thumb pinky d y z) - r * (1 - sa) / ca + r * cos t -> Y v = y + r - r * sin t -> Z v = z -> box v.
Proof.
  intros HR HD HT HY HY2 HW HZ EX EY EZ. pose proof (side_pt_x c thumb pinky SP d y z) as XS. fold o a ca in XS. pose proof PI_RGT_0 as PP. pose proof (sp_taper c o SP) as TA. fold a in TA.
  assert (ST : 0 <= sin t <= 1) by (split; [apply sin_ge_0; lra|apply SIN_bound]). assert (CT : 0 <= cos t) by (apply cos_ge_0; lra).
  assert (EXC : X v * ca = hw y - d - r * (1 - sa) + r * (cos t * ca)). { rewrite EX. replace ((X (side_pt c thumb pinky d y z) - r * (1 - sa) / ca + r * cos t) * ca) with (X (side_pt c thumb pinky d y z) * ca - r * (1 - sa) + r * (cos t * ca)) by (field; lra). rewrite XS. ring. }
  assert (HH : hw (Y v) = hw y + r * sa - r * (sin t * sa)). { rewrite EY. unfold half_width. fold a ca sa. ring. }
  assert (CC : cos t * ca + sin t * sa <= 1). { unfold ca, sa. rewrite <- cos_minus. apply COS_bound. }
  assert (S1 : 0 <= sa <= 1) by (split; [exact SA|apply SIN_bound]).
  assert (B1 : X v * ca <= hw (Y v)). { rewrite EXC, HH. pose proof (Rmult_le_compat_l r _ _ ltac:(lra) CC). lra. }
  assert (YR : y <= Y v <= y + r). { rewrite EY. pose proof (Rmult_le_compat_l r _ _ ltac:(lra) (proj1 ST)). pose proof (Rmult_le_compat_l r _ _ ltac:(lra) (proj2 ST)). lra. }
  assert (B2 : - X v * ca <= hw (Y v)).
  { pose proof (HM _ _ (proj1 YR)) as M1. assert (0 <= X v * ca); [|lra]. rewrite EXC. assert (0 <= r * (cos t * ca)) by (apply Rmult_le_pos; [lra|apply Rmult_le_pos; lra]). assert (0 <= r * sa) by (apply Rmult_le_pos; lra). lra. }
  split; [split; [exact B1|]; split; [exact B2|]|rewrite EZ; exact HZ]. fold m dp. lra.
Qed.
Lemma upper_box v : In v (noEdgeT no) -> box v.
Proof.
  intros I. destruct facts as (F1 & F2 & F3 & F4 & F5 & F6 & F7 & F8). pose proof eps_pos as EP.
  assert (YM : yf < - m) by lra. pose proof (nf_t _ _ _ _ NF rft_pos YM v I) as EI.
  assert (UB : forall w, upper_pt c thumb pinky w -> box w).
  { intros w [->|(t & HT & ->)].
    - change (box (side_pt c thumb pinky (fc + fh) (- m - ff) 0)). apply (inner_box _ (fc + fh)); [exact (side_pt_x c thumb pinky SP (fc + fh) (- m - ff) 0)| | |].
      + change (Y (side_pt c thumb pinky (fc + fh) (- m - ff) 0)) with (- m - ff). assert (YL : - (m + dp) <= - m - ff) by lra. pose proof (wide _ YL). lra.
      + change (Y (side_pt c thumb pinky (fc + fh) (- m - ff) 0)) with (- m - ff). lra.
      + change (Z (side_pt c thumb pinky (fc + fh) (- m - ff) 0)) with 0. lra.
    - assert (YL : - (m + dp) <= yf) by (unfold yf; lra). pose proof (wide _ YL). apply (round_corner hr (fc + fh) yf 0 t); [lra|lra|exact HT|exact YL|lra|lra|lra|reflexivity|reflexivity|reflexivity]. }
  destruct EI as [EI|(w & EI & ->)]; [apply UB, EI|apply box_mirror, UB, EI].
Qed.
Lemma lower_box v : In v (noEdgeG no) -> box v.
Proof.
  intros I. destruct facts as (F1 & F2 & F3 & F4 & F5 & F6 & F7 & F8). pose proof eps_pos as EP.
  assert (YM : yf < - m) by lra. pose proof (nf_g _ _ _ _ NF rft_pos YM v I) as EI.
  assert (UB : forall w, lower_pt c thumb pinky w -> box w).
  { intros w [->|(t & HT & ->)].
    - change (box (side_pt c thumb pinky fc (- m - ff) (- fh))). apply (inner_box _ fc); [exact (side_pt_x c thumb pinky SP fc (- m - ff) (- fh))| | |].
      + change (Y (side_pt c thumb pinky fc (- m - ff) (- fh))) with (- m - ff). assert (YL : - (m + dp) <= - m - ff) by lra. pose proof (wide _ YL). lra.
      + change (Y (side_pt c thumb pinky fc (- m - ff) (- fh))) with (- m - ff). lra.
      + change (Z (side_pt c thumb pinky fc (- m - ff) (- fh))) with (- fh). lra.
    - assert (YL : - (m + dp) <= yf - fh) by (unfold yf; lra). pose proof (wide _ YL). apply (round_corner (hr + fh) fc (yf - fh) (- fh) t); [lra|lra|exact HT|exact YL|lra|lra|lra| | |].
      + set (F := X (side_pt c thumb pinky (fc + fh) yf 0)). set (G := X (side_pt c thumb pinky fc (yf - fh) (- fh))).
        change (G + (1 + fh / hr) * (F - hr * (1 - sa) / ca + hr * cos t - F) = G - (hr + fh) * (1 - sa) / ca + (hr + fh) * cos t). field. split; lra.
      + change (yf - fh + (1 + fh / hr) * (yf + hr - hr * sin t - yf) = yf - fh + (hr + fh) - (hr + fh) * sin t). field. lra.
      + change (- fh + (1 + fh / hr) * (0 - 0) = - fh). ring. }
  destruct EI as [EI|(w & EI & ->)]; [apply UB, EI|apply box_mirror, UB, EI].
Qed.
End WithNotch.

(* the feet *)
Lemma foot_box s (pos : pt) r t z v : s = 1 \/ s = -1 -> 0 <= r <= fc / 2 -> s * X pos * ca = hw (Y pos) - fc / 2 -> - (m + dp) + r <= Y pos <= - m - r -> - fh <= z <= pa_height c - fh ->
  X v = X pos + r * cos t -> Y v = Y pos + r * sin t -> Z v = z -> box v.
Proof.
  intros HS HR HX HY HZ EX EY EZ. assert (YL : - (m + dp) <= Y pos) by lra. pose proof (wide _ YL) as W. pose proof (sp_hitch c o SP) as SH. fold hr in SH. pose proof eps_pos as EP. pose proof (sp_height c o SP) as SHT. fold fh in SHT.
  assert (HH : hw (Y v) = hw (Y pos) + r * (sin t * sa)) by (rewrite EY; unfold half_width; fold a ca sa; ring).
  assert (XX : s * X v * ca = hw (Y pos) - fc / 2 + r * (s * cos t * ca)) by (rewrite EX; replace (s * (X pos + r * cos t) * ca) with (s * X pos * ca + r * (s * cos t * ca)) by ring; rewrite HX; ring).
  assert (CC : -1 <= s * cos t * ca - sin t * sa <= 1 /\ -1 <= s * cos t * ca + sin t * sa <= 1).
  { unfold ca, sa. pose proof (COS_bound (t + a)) as B1. pose proof (COS_bound (t - a)) as B2. rewrite cos_plus in B1. rewrite cos_minus in B2. destruct HS as [-> | ->]; split; lra. }
  destruct CC as [[C1 C2] [C3 C4]]. pose proof (Rmult_le_compat_l r _ _ ltac:(lra) C2) as D2. pose proof (Rmult_le_compat_l r _ _ ltac:(lra) C3) as D3. 
  assert (K : s * X v * ca = hw (Y v) - (fc / 2 - r * (s * cos t * ca - sin t * sa))) by (rewrite XX, HH; ring).
  pose proof (SIN_bound t) as SB. pose proof (Rmult_le_compat_l r _ _ ltac:(lra) (proj1 SB)). pose proof (Rmult_le_compat_l r _ _ ltac:(lra) (proj2 SB)).
  destruct (two_sides c s (X v) (hw (Y v)) _ HS K) as [F1 F2]; [rewrite HH; lra|]. split; [|rewrite EZ; exact HZ]. split; [exact F1|]. split; [exact F2|]. fold m dp. lra.
Qed.
Lemma bumper_points bc (z : R) (pos : pt) b v : eps <= bu_diameter bc / 2 -> newBumper q bc z pos false = Ok b -> In v (mesh_points (buMesh b)) \/ In v (buFloor b) ->
  exists t, X v = X pos + bu_diameter bc / 2 * cos t /\ Y v = Y pos + bu_diameter bc / 2 * sin t /\ (Z v = - z \/ Z v = - z + bu_height bc).
Proof.
  intros HD H I. unfold newBumper in H. cbv zeta in H. apply bind_ok in H. destruct H as (arc & EA & H). apply Ok_inj in H. subst b. cbn [buFloor buMesh] in I.
  destruct (arc_shape q (bu_diameter bc / 2) _ _ _ _ HD EA) as (n & k & EL & _).
  assert (TR : forall u w, In w (etranslated arc u) -> exists t, X w = X vzero + bu_diameter bc / 2 * cos t + X u /\ Y w = Y vzero + bu_diameter bc / 2 * sin t + Y u /\ Z w = Z u).
  { intros u w J. unfold etranslated in J. rewrite EL, map_map in J. apply in_map_iff in J. destruct J as (i & <- & _). eexists. split; [reflexivity|]. split; [reflexivity|]. unfold vadd, P, Z. cbn [vz]. rn. ring. }
  assert (FG : forall w, In w (etranslated arc (vsub (vxy pos) (@V Rnum (nZ 0) (nZ 0) z))) -> exists t, X w = X pos + bu_diameter bc / 2 * cos t /\ Y w = Y pos + bu_diameter bc / 2 * sin t /\ Z w = - z).
  { intros w J. destruct (TR _ _ J) as (t & E1 & E2 & E3). exists t. rewrite E1, E2, E3. destruct pos as [p1 p2 p3]. unfold vsub, vxy, vzero, X, Y, Z. cbn [vx vy vz]. rn. split; [ring|]. split; ring. }
  assert (FT : forall w, In w (etranslated arc (vsub (vxy pos) (@V Rnum (nZ 0) (nZ 0) (nsub (Num := Rnum) z (bu_height bc))))) -> exists t, X w = X pos + bu_diameter bc / 2 * cos t /\ Y w = Y pos + bu_diameter bc / 2 * sin t /\ Z w = - z + bu_height bc).
  { intros w J. destruct (TR _ _ J) as (t & E1 & E2 & E3). exists t. rewrite E1, E2, E3. destruct pos as [p1 p2 p3]. unfold vsub, vxy, vzero, X, Y, Z. cbn [vx vy vz]. rn. split; [ring|]. split; ring. }
  assert (F1 : forall (A : Type) (l : list A) x, In x (firstn 1 l) -> In x l) by (intros A l x J; destruct l; [destruct J|]; destruct J as [<-|[]]; left; reflexivity).
  destruct I as [I|I].
  - cbn [mesh_points] in I. apply in_app_or in I. destruct I as [I|I]; (apply in_app_or in I; destruct I as [I|I]); try apply F1 in I.
    + destruct (FT v I) as (t & E1 & E2 & E3). exists t. auto.
    + destruct (FT v I) as (t & E1 & E2 & E3). exists t. auto.
    + destruct (FT v I) as (t & E1 & E2 & E3). exists t. auto.
    + destruct (FG v I) as (t & E1 & E2 & E3). exists t. auto.
  - destruct (FG v I) as (t & E1 & E2 & E3). exists t. auto.
Qed.
Lemma feet_made bc r up bs : roof_facts c thumb pinky r up -> sane_feet c bc -> fc <= dp -> palmBumpers q c (Some bc) r = Ok bs ->
  forall b v, In b bs -> In v (mesh_points (buMesh b)) \/ In v (buFloor b) -> box v.
Proof.
  intros RF (S1 & S2 & S3 & S4 & S5) FD H b v IB IV. unfold palmBumpers in H. cbv zeta in H. rewrite (rf_pl _ _ _ _ _ RF) in H. assert (YF := rf_f _ _ _ _ _ RF). assert (YB := rf_b _ _ _ _ _ RF). fold m dp in YF. fold m in YB.
  set (ins := pmax _ _) in H. fold fc in S2. fold dp in S5.
  assert (EI : ins = Rmax (bu_margin bc + bu_diameter bc / 2 + match pa_groove c with Some g => gr_roofMargin g + gr_height g | None => 0 end) (fc / 2)).
  { unfold ins. rewrite pmax_R. f_equal. destruct (pa_groove c); rn; [reflexivity|ring]. }
  assert (I0 : bu_diameter bc / 2 <= ins /\ ins + bu_diameter bc / 2 <= dp).
  { rewrite EI. split; [eapply Rle_trans; [|apply Rmax_r]; lra|]. pose proof eps_pos. apply (Rplus_le_reg_r (- (bu_diameter bc / 2))). rewrite Rplus_assoc, Rplus_opp_r, Rplus_0_r. apply Rmax_lub; lra. }
  clearbody ins.
  apply bind_ok in H. destruct H as (lf & E1 & H). apply bind_ok in H. destruct H as (lb & E2 & H). apply bind_ok in H. destruct H as (ll & E3 & H). apply bind_ok in H. destruct H as (pf & E4 & H). apply bind_ok in H. destruct H as (pb & E5 & H).
  apply (newLine_unit _ _ _ unit_x) in E1. apply (newLine_unit _ _ _ unit_x) in E2.
  rewrite (pleft_is c thumb pinky) in E3. cbn [ppos pnormal] in E3. fold o a ca sa in E3.
  assert (UO : unit_vec (vortho2D (P (- ca) (- sa) 0))). { unfold vortho2D, unit_vec, inner, P, X, Y, Z. cbn [vx vy vz]. rn. lra. }
  apply (newLine_unit _ _ _ UO) in E3.
  assert (EL : ll = mkLine (P (- (o - fc / 2 * ca)) (fc / 2 * sa) 0) (P sa (- ca) 0)). { rewrite E3. unfold vortho2D, vsub, vscale, P. cbn [vx vy vz]. rn. fold fc. f_equal; f_equal; field. }
  assert (WL : wf_line ll) by (rewrite EL; unfold wf_line, unit_vec, inner, P, X, Y, Z; cbn [ldir vx vy vz]; lra).
  assert (MEET : forall y l w, l = xline y 0 -> lintersect ll l = Ok w -> w = vmirX (side_pt c thumb pinky (fc / 2) y 0)).
  { intros y l w -> HI. apply (lintersect_common ll (xline y 0) w _ WL (xline_wf y 0) HI).
    - rewrite EL. exists (- ((y - fc / 2 * sa) / ca)). unfold side_pt, vmirX, plus, scaled, P, X, Y, Z, half_width. cbn [lpos ldir vx vy vz]. rn. fold o a ca sa. f_equal; [|field; lra|ring].
      apply (Rmult_eq_reg_r ca); [|lra]. replace (- ((o * ca + y * sa - fc / 2) / ca) * ca) with (- (o * ca + y * sa - fc / 2)) by (field; lra).
      replace ((- (o - fc / 2 * ca) + - ((y - fc / 2 * sa) / ca) * sa) * ca) with (- (o * ca) + fc / 2 * (ca * ca + sa * sa) - y * sa) by (field; lra). rewrite U1. ring.
    - exists (- ((hw y - fc / 2) / ca)). unfold xline, side_pt, vmirX, plus, scaled, P, X, Y, Z. cbn [lpos ldir vx vy vz]. rn. fold o a ca. f_equal; ring. }
  assert (EF : pf = vmirX (side_pt c thumb pinky (fc / 2) (- (m + dp) + ins) 0)). { apply (MEET _ lf); [|exact E4]. rewrite E1. unfold xline. f_equal. unfold P. f_equal. rn. unfold Y in YF. rewrite YF. reflexivity. }
  assert (EB : pb = vmirX (side_pt c thumb pinky (fc / 2) (- m - ins) 0)). { apply (MEET _ lb); [|exact E5]. rewrite E2. unfold xline. f_equal. unfold P. f_equal. rn. unfold Y in YB. rewrite YB. reflexivity. }
  apply mapM_ok in H. destruct (forall2_in_r _ _ _ b H IB) as (pos & IP & NB).
  destruct (bumper_points bc _ pos b v S1 NB IV) as (t & EX & EY & EZ).
  assert (PO : exists s, (s = 1 \/ s = -1) /\ s * X pos * ca = hw (Y pos) - fc / 2 /\ - (m + dp) + bu_diameter bc / 2 <= Y pos <= - m - bu_diameter bc / 2).
  { assert (SX : forall y, X (side_pt c thumb pinky (fc / 2) y 0) * ca = hw y - fc / 2) by (intros y; exact (side_pt_x c thumb pinky SP (fc / 2) y 0)).
    assert (FF : forall y, Y (vmirX (side_pt c thumb pinky (fc / 2) y 0)) = y /\ X (vmirX (side_pt c thumb pinky (fc / 2) y 0)) = - X (side_pt c thumb pinky (fc / 2) y 0) /\ Y (vmirX (vmirX (side_pt c thumb pinky (fc / 2) y 0))) = y /\ X (vmirX (vmirX (side_pt c thumb pinky (fc / 2) y 0))) = X (side_pt c thumb pinky (fc / 2) y 0)).
    { intros y. split; [reflexivity|]. split; [reflexivity|]. split; [reflexivity|]. unfold vmirX, X. cbn [vx]. rn. ring. }
    destruct IP as [<-|[<-|[<-|[<-|[]]]]]; [exists (-1); split; [right; reflexivity|]|exists (-1); split; [right; reflexivity|]|exists 1; split; [left; reflexivity|]|exists 1; split; [left; reflexivity|]].
    - rewrite EF. destruct (FF (- (m + dp) + ins)) as (Q1 & Q2 & _). rewrite Q1, Q2. rewrite <- SX. split; [ring|lra].
    - rewrite EB. destruct (FF (- m - ins)) as (Q1 & Q2 & _). rewrite Q1, Q2. rewrite <- SX. split; [ring|lra].
    - rewrite EF. destruct (FF (- (m + dp) + ins)) as (_ & _ & Q1 & Q2). rewrite Q1, Q2. rewrite <- SX. split; [ring|lra].
    - rewrite EB. destruct (FF (- m - ins)) as (_ & _ & Q1 & Q2). rewrite Q1, Q2. rewrite <- SX. split; [ring|lra]. }
  destruct PO as (s & HS & HX & HY). pose proof eps_pos. apply (foot_box s pos (bu_diameter bc / 2) t (Z v) v HS); [lra|exact HX|exact HY| |exact EX|exact EY|reflexivity].
  fold fh in EZ. pose proof (sp_height c o SP) as SHT. pose proof (sp_floor c o SP) as SFF. fold fh ff in SHT. fold ff in SFF. destruct EZ as [-> | ->]; lra.
Qed.
End All.
