(** The search for a boss position. *)
From Coq Require Import Reals Lra Psatz List Bool ZArith Lia.
From Verif Require Import Num GeoModel GeoSpec GeoMat GeoRigid GeoPlane GeoIso EdgeModel EdgeSpecR EdgeReal EdgeContains EdgeHull EdgeHull2 ArcModel
  KeyModel LayoutModel LayoutProof BossModel PlanModel HullSpec HullDist PlanSpec WallProof.
Import ListNotations.
Open Scope R_scope.

Lemma on_line_ground l (v : pt) : ground_line l -> on_line l v -> beyond l v = 0 /\ Z v = 0.
Proof.
  intros (U & Zd & Zp) (k & ->). destruct l as [[px py pz] [dx dy dz]]. unfold beyond, plus, scaled, P, X, Y, Z in *. rn. subst pz dz. split; ring.
Qed.
Lemma two_zero (a b c d ex ey : R) : a * d - b * c <> 0 -> a * ex + b * ey = 0 -> c * ex + d * ey = 0 -> ex = 0 /\ ey = 0.
Proof.
  intros D E1 E2. assert (K1 : ex * (a * d - b * c) = 0) by (replace (ex * (a * d - b * c)) with (d * (a * ex + b * ey) - b * (c * ex + d * ey)) by ring; rewrite E1, E2; ring).
  assert (K2 : ey * (a * d - b * c) = 0) by (replace (ey * (a * d - b * c)) with (a * (c * ex + d * ey) - c * (a * ex + b * ey)) by ring; rewrite E1, E2; ring).
  split; [apply Rmult_integral in K1|apply Rmult_integral in K2]; tauto.
Qed.
Lemma ground_meet s o (v : pt) : ground_line s -> ground_line o -> lintersect s o = Ok v -> on_line s v /\ on_line o v.
Proof.
  intros Gs Go H. pose proof Gs as (Us & Zds & Zps). pose proof Go as (Uo & Zdo & Zpo).
  destruct (lintersect_spec s o v Us Uo H) as (a & b & Ha & Hb & Ev & P1 & P2).
  assert (D : 1 - inner (ldir o) (ldir s) * inner (ldir o) (ldir s) <> 0).
  { unfold lintersect in H. cbn zeta in H. change (@vdot Rnum) with inner in H. unfold unit_vec in *. rewrite Us, Uo in H. rn.
    replace (1 * 1) with 1 in H by ring. destruct (isZero _) eqn:E; [discriminate|]. apply not_isZero_neq in E. exact E. }
  destruct (on_line_ground s a Gs Ha) as (_ & Za). destruct (on_line_ground o b Go Hb) as (_ & Zb).
  assert (AB : a = b).
  { unfold unit_vec, inner, minus, P, X, Y, Z in *. rn.
    set (sx := vx (ldir s)) in *. set (sy := vy (ldir s)) in *. set (ox := vx (ldir o)) in *. set (oy := vy (ldir o)) in *.
    rewrite Zds in *. rewrite Zdo in *. rewrite Za, Zb in *.
    assert (DD : sx * oy - sy * ox <> 0).
    { intros E. apply D. replace (ox * sx + oy * sy + 0 * 0) with (ox * sx + oy * sy) by ring.
      assert (Q : (sx * oy - sy * ox) * (sx * oy - sy * ox) + (ox * sx + oy * sy) * (ox * sx + oy * sy) = (sx * sx + sy * sy) * (ox * ox + oy * oy)) by ring.
      rewrite E in Q. replace (sx * sx + sy * sy) with 1 in Q by lra. replace (ox * ox + oy * oy) with 1 in Q by lra. lra. }
    destruct (two_zero sx sy ox oy (vx a - vx b) (vy a - vy b) DD) as (E1 & E2); [lra|lra|].
    destruct a, b. rn. f_equal; cbn [num Rnum] in *; lra. }
  subst b. assert (v = a) as ->; [|split; assumption]. rewrite Ev. apply pt_ext; unfold scaled, plus, P, X, Y, Z; rn; field.
Qed.
Lemma opp_scale (w : pt) (s : R) : vscale (vopp w) s = vscale w (- s).
Proof. unfold vscale, vopp. apply (f_equal3 (@V Rnum)); rn; ring. Qed.

Section Fit.
Variables (b0 b1 : list pt).   (* the bounds of the two keys *)
Hypothesis L0 : (2 <= length b0)%nat.
Hypothesis L1 : (2 <= length b1)%nat.
Variables (line0 line1 : @line Rnum) (r margin : R).
Hypothesis G0 : ground_line line0.
Hypothesis G1 : ground_line line1.

Definition far (pos : pt) : Prop := forall b, b = b0 \/ b = b1 -> exists d, edistance2D (convexHull2D b) pos = Ok d /\ r <= d.
Lemma far_dec pos : exists d0 d1, edistance2D (convexHull2D b0) pos = Ok d0 /\ edistance2D (convexHull2D b1) pos = Ok d1 /\ (r <= d0 /\ r <= d1 <-> far pos).
Proof.
  destruct (hull_distance b0 pos L0) as (d0 & E0 & _). destruct (hull_distance b1 pos L1) as (d1 & E1 & _). exists d0, d1. split; [exact E0|]. split; [exact E1|].
  unfold far. split.
  - intros (A & B) b [->| ->]; eauto.
  - intros H. destruct (H b0 (or_introl eq_refl)) as (d & E & K). destruct (H b1 (or_intror eq_refl)) as (d' & E' & K').
    rewrite E0 in E. rewrite E1 in E'. apply Ok_inj in E, E'. subst d d'. auto.
Qed.
Lemma searchBoss_spec (middle forward : pt) l : exists o, @searchBoss Rnum (convexHull2D b0) (convexHull2D b1) middle forward r l = Ok o /\
  match o with
  | Some pos => exists j, In j l /\ pos = vadd middle (vscale forward (IZR j * (1 / 2))) /\ far pos
  | None => forall j, In j l -> ~ far (vadd middle (vscale forward (IZR j * (1 / 2))))
  end.
Proof.
  induction l as [|j l IH]; [exists None; split; [reflexivity|]; intros j []|].
  cbn [searchBoss]. change (@nQ Rnum 1 2) with (1 / 2). change (@nZ Rnum j) with (IZR j).
  set (pos := vadd middle (vscale forward (IZR j * (1 / 2)))).
  change (vadd middle (vscale forward (@nmul Rnum (IZR j) (1 / 2)))) with pos.
  destruct (far_dec pos) as (d0 & d1 & E0 & E1 & F). rewrite E0, E1. cbn [bind].
  destruct (@nleb Rnum r d0) eqn:Q0; [destruct (@nleb Rnum r d1) eqn:Q1|]; cbn [andb].
  - apply Rleb_true in Q0, Q1. exists (Some pos). split; [reflexivity|]. exists j. split; [left; reflexivity|]. split; [reflexivity|]. apply F. auto.
  - destruct IH as (o & -> & IH). exists o. split; [reflexivity|]. apply Rleb_false in Q1. destruct o.
    + destruct IH as (j' & Hj & K). exists j'. split; [right; exact Hj|exact K].
    + intros j' [<-|Hj]; [|apply IH; exact Hj]. fold pos. rewrite <- F. lra.
  - destruct IH as (o & -> & IH). exists o. split; [reflexivity|]. apply Rleb_false in Q0. destruct o.
    + destruct IH as (j' & Hj & K). exists j'. split; [right; exact Hj|exact K].
    + intros j' [<-|Hj]; [|apply IH; exact Hj]. fold pos. rewrite <- F. lra.
Qed.

Hypothesis R0 : 0 <= r.
Lemma steps_spec j : In j (steps (Z.add (@pint Rnum (@ndiv Rnum r (@nQ Rnum 1 2))) 1)) <-> Rabs (IZR j / 2) <= r.
Proof.
  assert (E : @pint Rnum (@ndiv Rnum r (@nQ Rnum 1 2)) = Int_part (2 * r)).
  { unfold pint. rn. replace (r / (1 / 2)) with (2 * r) by field. destruct (Rltb (2 * r) 0) eqn:Q; [apply Rltb_true in Q; lra|].
    unfold Rceil. rewrite Ropp_involutive. rewrite Z.opp_involutive. reflexivity. }
  rewrite E. set (n := Int_part (2 * r)). destruct (base_Int_part (2 * r)) as (B1 & B2). fold n in B1, B2.
  assert (N : (0 <= n)%Z).
  { apply Z.lt_succ_r. apply lt_IZR. unfold Z.succ. rewrite plus_IZR. lra. }
  assert (S : In j (steps (n + 1)) <-> (Z.abs j <= n)%Z).
  { unfold steps. rewrite in_flat_map. split.
    - intros (i & Hi & Hj). apply in_seq in Hi. cbn [In] in Hj. lia.
    - intros H. exists (Z.abs_nat j). split; [apply in_seq; lia|]. cbn [In]. lia. }
  rewrite S. assert (A : Rabs (IZR j / 2) = IZR (Z.abs j) / 2).
  { unfold Rdiv. rewrite Rabs_mult, (Rabs_right (/ 2)) by lra. rewrite <- abs_IZR. reflexivity. }
  rewrite A. split; intros H.
  - apply IZR_le in H. lra.
  - apply Z.lt_succ_r. apply lt_IZR. unfold Z.succ. rewrite plus_IZR. lra.
Qed.

Variable dir : pt.
Hypothesis UD : unit_vec dir.
Hypothesis ZD : Z dir = 0.
Let outward := vopp (vortho2D dir).
Let bossDelta := vscale (vopp outward) (r + margin).
Let wallDelta := vscale outward (1 / 4).
(* the lines of the wall, and the keys' axes are not nearly parallel to it *)
Hypothesis X0 : eps <= 1 - inner dir (ldir line0) * inner dir (ldir line0).
Hypothesis X1 : eps <= 1 - inner dir (ldir line1) * inner dir (ldir line1).

Lemma meet_ex l o : ground_line l -> ldir l = dir -> ground_line o -> eps <= 1 - inner dir (ldir o) * inner dir (ldir o) ->
  exists v, lintersect l o = Ok v.
Proof.
  intros G D GO E. destruct (lintersect l o) as [v|e] eqn:H; [eauto|]. exfalso.
  pose proof (proj1 (lintersect_err l o (proj1 G) (proj1 GO))) as K. rewrite D in K. pose proof (K (ex_intro _ e H)) as K'.
  apply Rabs_def2 in K'. lra.
Qed.
(* one round of the search *)
Lemma round wall : ground_line wall -> ldir wall = dir ->
  exists bl i0 i1, ltranslated wall bossDelta = Ok bl /\ lintersect bl line0 = Ok i0 /\ lintersect bl line1 = Ok i1 /\
  forall pos, boss_spot r margin wall line0 line1 pos <-> exists j, Rabs (IZR j / 2) <= r /\ pos = vadd (vhalf (vadd i0 i1)) (vscale dir (IZR j * (1 / 2))).
Proof.
  intros G D. destruct (move_out wall (- (r + margin)) G) as (bl & Eb & (D1 & GB & B)). rewrite D in Eb. fold outward in Eb.
  assert (Eb' : ltranslated wall bossDelta = Ok bl) by (unfold bossDelta; rewrite opp_scale; exact Eb).
  destruct (meet_ex bl line0 GB (eq_trans D1 D) G0 X0) as (i0 & I0). destruct (meet_ex bl line1 GB (eq_trans D1 D) G1 X1) as (i1 & I1).
  exists bl, i0, i1. split; [exact Eb'|]. split; [exact I0|]. split; [exact I1|].
  destruct (ground_meet bl line0 i0 GB G0 I0) as (A1 & A2). destruct (ground_meet bl line1 i1 GB G1 I1) as (C1 & C2).
  destruct (on_line_ground bl i0 GB A1) as (Y0 & Z0). destruct (on_line_ground bl i1 GB C1) as (Y1 & Z1).
  rewrite B in Y0, Y1.
  assert (SAME : forall (j : BinNums.Z), vadd (vhalf (vadd i0 i1)) (vscale dir (IZR j * (1 / 2))) =
    P ((X i0 + X i1) / 2 + IZR j / 2 * X dir) ((Y i0 + Y i1) / 2 + IZR j / 2 * Y dir) 0).
  { intros j. clear - Z0 Z1 ZD. destruct i0 as [ax ay az], i1 as [bx by_ bz], dir as [dx dy dz]. unfold Z in *. rn. subst az bz dz.
    apply pt_ext; unfold vadd, vhalf, vscale, P, X, Y, Z; rn; field. }
  intros pos. split.
  2: { intros (j & Hj & ->). exists i0, i1, j. split; [exact A2|]. split; [exact C2|]. split; [lra|]. split; [lra|]. split; [exact Hj|]. rewrite D. apply SAME. }
  - intros (a & b & j' & Ha & Hb & Ba & Bb & Hj' & EP). exists j'. split; [exact Hj'|].
    assert (M : forall l i v, lintersect bl l = Ok i -> ground_line l -> on_line l v -> beyond wall v = - (r + margin) -> i = v).
    { intros l i v Hi Gl Hv Bv. apply (lintersect_common bl l i v (proj1 GB) (proj1 Gl) Hi); [|exact Hv].
      destruct (on_line_ground l v Gl Hv) as (_ & Zv). assert (BB : beyond bl v = 0) by (rewrite B; lra).
      destruct GB as (U & Zd & Zp). clear - BB U Zd Zp Zv. destruct bl as [[px py pz] [dx dy dz]], v as [x y z].
      unfold on_line, beyond, unit_vec, inner, X, Y, Z in *. rn. subst z dz pz. exists ((x - px) * dx + (y - py) * dy).
      apply pt_ext; unfold plus, scaled, P, X, Y, Z; rn; [| |ring].
      - transitivity (px + (x - px) * (dx * dx + dy * dy)); [replace (dx * dx + dy * dy) with 1 by lra; ring|].
        transitivity (px + ((x - px) * dx + (y - py) * dy) * dx + ((x - px) * dy - (y - py) * dx) * dy); [ring|rewrite BB; ring].
      - transitivity (py + (y - py) * (dx * dx + dy * dy)); [replace (dx * dx + dy * dy) with 1 by lra; ring|].
        transitivity (py + ((x - px) * dx + (y - py) * dy) * dy - ((x - px) * dy - (y - py) * dx) * dx); [ring|rewrite BB; ring]. }
    rewrite SAME, (M line0 i0 a I0 G0 Ha Ba), (M line1 i1 b I1 G1 Hb Bb). rewrite D in EP. exact EP.
Qed.

Lemma spot_ext w w' pos : ldir w' = ldir w -> (forall v, beyond w' v = beyond w v) -> boss_spot r margin w line0 line1 pos -> boss_spot r margin w' line0 line1 pos.
Proof. intros D B (a & b & j & H). exists a, b, j. rewrite D, !B. exact H. Qed.
Lemma moved_0 l : ground_line l -> moved_out 0 l l.
Proof. intros G. split; [reflexivity|]. split; [exact G|]. intros v. ring. Qed.
Lemma moved_trans a b l l' l'' : moved_out a l l' -> moved_out b l' l'' -> moved_out (a + b) l l''.
Proof. intros (D & G & B) (D' & G' & B'). split; [congruence|]. split; [exact G'|]. intros v. rewrite B', B. ring. Qed.

Lemma one_round wi wo : ground_line wi -> ground_line wo -> ldir wi = dir -> ldir wo = dir ->
  forall fuel, let go := bossLoop (S fuel) (convexHull2D b0) (convexHull2D b1) line0 line1 bossDelta wallDelta dir r (wi, wo) in
  (exists pos, go = Ok (pos, (wi, wo)) /\ boss_spot r margin wo line0 line1 pos /\ far pos) \/
  ((forall pos, boss_spot r margin wo line0 line1 pos -> ~ far pos) /\
   exists wi' wo', moved_out (1 / 4) wi wi' /\ moved_out (1 / 4) wo wo' /\
   go = bossLoop fuel (convexHull2D b0) (convexHull2D b1) line0 line1 bossDelta wallDelta dir r (wi', wo')).
Proof.
  intros GI GO DI DO fuel. cbv zeta. cbn [bossLoop fst snd].
  destruct (round wo GO DO) as (bl & i0 & i1 & E1 & E2 & E3 & SP). rewrite E1. cbn [bind]. rewrite E2. cbn [bind]. rewrite E3. cbn [bind].
  destruct (searchBoss_spec (vhalf (vadd i0 i1)) dir (steps (Z.add (@pint Rnum (@ndiv Rnum r (@nQ Rnum 1 2))) 1))) as (o & Eo & Ho).
  unfold pt in *. rewrite Eo. cbn [bind]. destruct o as [pos|].
  - left. exists pos. split; [reflexivity|]. destruct Ho as (j & Hj & -> & F). split; [|exact F]. apply SP. exists j. split; [apply steps_spec; exact Hj|reflexivity].
  - right. split.
    + intros pos Hp. apply SP in Hp. destruct Hp as (j & Hj & ->). apply Ho. apply steps_spec. exact Hj.
    + destruct (move_out wi (1 / 4) GI) as (wi' & Ei & Mi). destruct (move_out wo (1 / 4) GO) as (wo' & Eo' & Mo). rewrite DI in Ei. rewrite DO in Eo'.
      exists wi', wo'. split; [exact Mi|]. split; [exact Mo|].
      change (ltranslated wi wallDelta = Ok wi') in Ei. change (ltranslated wo wallDelta = Ok wo') in Eo'. rewrite Ei. cbn [bind]. rewrite Eo'. reflexivity.
Qed.

Lemma loop_sound fuel : forall wi wo pos wi' wo', ground_line wi -> ground_line wo -> ldir wi = dir -> ldir wo = dir ->
  bossLoop fuel (convexHull2D b0) (convexHull2D b1) line0 line1 bossDelta wallDelta dir r (wi, wo) = Ok (pos, (wi', wo')) ->
  exists n : nat, moved_out (INR n / 4) wi wi' /\ moved_out (INR n / 4) wo wo' /\ boss_spot r margin wo' line0 line1 pos /\ far pos /\
  forall k wk pos', (k < n)%nat -> moved_out (INR k / 4) wo wk -> boss_spot r margin wk line0 line1 pos' -> ~ far pos'.
Proof.
  induction fuel as [|fuel IH]; intros wi wo pos wi' wo' GI GO DI DO H; [discriminate|].
  destruct (one_round wi wo GI GO DI DO fuel) as [(p & E & S & F)|(NF & wi1 & wo1 & Mi & Mo & E)]; cbv zeta in E; rewrite E in H.
  - injection H as <- <- <-. exists 0%nat. change (INR 0) with 0. replace (0 / 4) with 0 by field.
    split; [apply moved_0, GI|]. split; [apply moved_0, GO|]. split; [exact S|]. split; [exact F|]. intros k wk pos' Hk. lia.
  - apply IH in H; [|apply Mi|apply Mo|rewrite <- DI; apply Mi|rewrite <- DO; apply Mo].
    destruct H as (n & M1 & M2 & S & F & A). exists (Datatypes.S n). rewrite S_INR.
    replace ((INR n + 1) / 4) with (1 / 4 + INR n / 4) by field.
    split; [eapply moved_trans; eauto|]. split; [eapply moved_trans; eauto|]. split; [exact S|]. split; [exact F|].
    intros [|k] wk pos' Hk Mk Sk.
    + destruct Mk as (Dk & Gk & Bk). change (INR 0) with 0 in Bk. apply NF. eapply spot_ext; [| |exact Sk]; [symmetry; exact Dk|]. intros v. rewrite Bk. lra.
    + destruct Mk as (Dk & Gk & Bk). rewrite S_INR in Bk. destruct Mo as (D1 & G1' & B1).
      apply (A k wk pos'); [lia| |exact Sk]. split; [congruence|]. split; [exact Gk|]. intros v. rewrite Bk, B1. field.
Qed.

(* with enough room the first place is free *)
Lemma edist2_beyond l (p q : pt) : ground_line l -> beyond l q - beyond l p <= edist2 p q.
Proof.
  intros (U & Zd & _). unfold edist2. destruct l as [[px py pz] [dx dy dz]], p as [x y z], q as [x' y' z'].
  unfold unit_vec, inner, beyond, sqdist2, X, Y, Z, Rsqr in *. rn. subst dz.
  apply Rle_trans with (Rabs ((x' - x) * dy - (y' - y) * dx)); [eapply Rle_trans; [|apply Rle_abs]; lra|].
  rewrite <- sqrt_Rsqr_abs. apply sqrt_le_1_alt. unfold Rsqr.
  set (a := x' - x) in *. set (b := y' - y) in *. replace ((x - x') * (x - x') + (y - y') * (y - y')) with ((a * a + b * b) * (dx * dx + dy * dy)).
  - replace ((a * a + b * b) * (dx * dx + dy * dy)) with ((a * dy - b * dx) * (a * dy - b * dx) + (a * dx + b * dy) * (a * dx + b * dy)) by ring.
    pose proof (Rle_0_sqr (a * dx + b * dy)) as Q. unfold Rsqr in Q. lra.
  - replace (dx * dx + dy * dy) with 1 by lra. unfold a, b. ring.
Qed.
Lemma spanned_beyond l vs m : (forall v, In v vs -> beyond l v <= m) -> forall w, spanned vs w -> beyond l w <= m.
Proof.
  intros H. induction 1 as [v w Hv EX EY|p q w _ IHp _ IHq (t & T & A & B)].
  - unfold beyond. rewrite EX, EY. apply (H v Hv).
  - assert (E : beyond l w = (1 - t) * beyond l p + t * beyond l q) by (unfold beyond; rewrite A, B; unfold at2, X, Y, P; rn; ring).
    rewrite E. assert ((1 - t) * beyond l p <= (1 - t) * m) by (apply Rmult_le_compat_l; lra). assert (t * beyond l q <= t * m) by (apply Rmult_le_compat_l; lra). lra.
Qed.
Lemma dist_beyond l (vs : list pt) m (pos : pt) : (2 <= length vs)%nat -> ground_line l -> (forall v, In v vs -> beyond l v <= m) -> m < beyond l pos ->
  exists d, edistance2D (convexHull2D vs) pos = Ok d /\ beyond l pos - m <= d.
Proof.
  intros L G H M. destruct (hull_main vs L) as (LH & IN & _). cbn zeta in *.
  assert (NE : convexHull2D vs <> []) by (intros E; rewrite E in LH; cbn in LH; lia).
  destruct (edistance_spec _ pos NE) as (d & Ed & _ & D2). exists d. split; [exact Ed|].
  destruct D2 as ((i & w & Hi & Hw & ->) & _).
  { apply contains_separated. exists (Y (ldir l)), (- X (ldir l)). intros p Hp. destruct (IN p Hp) as (v & Hv & ->). specialize (H v Hv).
    unfold beyond in *. unfold vxy, X, Y in *. rn. lra. }
  pose proof (spanned_beyond l vs m H w (hull_spanned vs i w L Hi Hw)). pose proof (edist2_beyond l w pos G). lra.
Qed.
Lemma upper_bound (f : pt -> R) (vs : list pt) : exists m, forall v, In v vs -> f v <= m.
Proof.
  induction vs as [|x vs (m & IH)]; [exists 0; intros v []|]. exists (Rmax (f x) m). intros v [<-|Hv]; [apply Rmax_l|]. eapply Rle_trans; [apply IH, Hv|apply Rmax_r].
Qed.
Lemma spot_exists w : ground_line w -> ldir w = dir -> exists pos, boss_spot r margin w line0 line1 pos.
Proof.
  intros G D. destruct (round w G D) as (_ & i0 & i1 & _ & _ & _ & SP). eexists. apply SP. exists 0%Z. split; [|reflexivity].
  unfold Rdiv. rewrite Rmult_0_l, Rabs_R0. exact R0.
Qed.
Lemma spot_beyond w pos : unit_vec (ldir w) -> Z (ldir w) = 0 -> boss_spot r margin w line0 line1 pos -> beyond w pos = - (r + margin).
Proof.
  intros U Zd (a & b & j & _ & _ & Ba & Bb & _ & ->). unfold beyond, X, Y, P in *. rn.
  transitivity ((((vx a - vx (lpos w)) * vy (ldir w) - (vy a - vy (lpos w)) * vx (ldir w)) + ((vx b - vx (lpos w)) * vy (ldir w) - (vy b - vy (lpos w)) * vx (ldir w))) / 2); [field|].
  rewrite Ba, Bb. field.
Qed.
Lemma loop_terminates wi0 wo0 : ground_line wi0 -> ground_line wo0 -> ldir wi0 = dir -> ldir wo0 = dir ->
  exists n, forall fuel, (n <= fuel)%nat -> exists pos w, bossLoop fuel (convexHull2D b0) (convexHull2D b1) line0 line1 bossDelta wallDelta dir r (wi0, wo0) = Ok (pos, w).
Proof.
  intros GI0 GO0 DI0 DO0.
  destruct (upper_bound (beyond wo0) (b0 ++ b1)) as (m & M).
  destruct (archimed (4 * (m + 2 * r + margin) + 1)) as (AR & _). set (z := up (4 * (m + 2 * r + margin) + 1)) in *.
  assert (K : forall n k, (Z.of_nat k + Z.of_nat n >= z)%Z -> forall fuel, (n < fuel)%nat -> forall wi wo, ground_line wi -> ldir wi = dir -> moved_out (INR k / 4) wo0 wo ->
    exists pos w, bossLoop fuel (convexHull2D b0) (convexHull2D b1) line0 line1 bossDelta wallDelta dir r (wi, wo) = Ok (pos, w)).
  { induction n as [|n IH]; intros k Hk fuel Hf wi wo GI DI Mo; (destruct fuel as [|fuel]; [lia|]);
    pose proof Mo as (D1 & GO & B1); assert (DO : ldir wo = dir) by congruence;
    destruct (one_round wi wo GI GO DI DO fuel) as [(p & E & S & F)|(NF & wi1 & wo1 & Mi & Mo1 & E)]; cbv zeta in E; rewrite E; eauto.
    - exfalso. destruct (spot_exists wo GO DO) as (pos & SP). apply (NF pos SP).
      pose proof (spot_beyond wo pos (proj1 GO) (proj1 (proj2 GO)) SP) as BP. rewrite B1 in BP.
      assert (KR : IZR z <= INR k) by (rewrite INR_IZR_INZ; apply IZR_le; lia).
      intros b Hb. destruct (dist_beyond wo0 b m pos) as (d & Ed & Hd).
      + destruct Hb as [->| ->]; assumption.
      + exact GO0.
      + intros v Hv. apply M. apply in_or_app. destruct Hb as [->| ->]; auto.
      + lra.
      + exists d. split; [exact Ed|]. lra.
    - apply (IH (Datatypes.S k)); [lia|lia|apply Mi|rewrite <- DI; apply Mi|].
      rewrite S_INR. replace ((INR k + 1) / 4) with (INR k / 4 + 1 / 4) by field. eapply moved_trans; eauto. }
  exists (Datatypes.S (Z.to_nat z)). intros fuel Hf. apply (K (Z.to_nat z) 0%nat); [lia|lia|exact GI0|exact DI0|]. change (INR 0) with 0. replace (0 / 4) with 0 by field. apply moved_0, GO0.
Qed.
End Fit.
