(** fitBoss2D as a whole. *)
From Coq Require Import Reals Lra Psatz List Bool ZArith Lia Classical.
From Verif Require Import Num GeoModel GeoSpec GeoMat GeoRigid GeoPlane GeoIso EdgeModel EdgeSpecR EdgeReal EdgeContains EdgeHull EdgeHull2 ArcModel
  KeyModel LayoutModel LayoutProof BossModel PlanModel HullSpec HullDist PlanSpec WallProof BossFit.
Import ListNotations.
Open Scope R_scope.

Lemma keyLine_form k : Built (kmatrix k) -> exists l, keyLine k = Ok l /\ unit_vec (ldir l) /\
  lpos l = transformed (P 0 0 0) (kmatrix k) /\ ldir l = minus (transformed (P 0 1 0) (kmatrix k)) (transformed (P 0 0 0) (kmatrix k)).
Proof.
  intros B. unfold keyLine, newLine at 1. 
  assert (U : unit_vec (P 0 1 0)) by (unfold unit_vec, inner, P, X, Y, Z; rn; ring).
  change (@V Rnum (nZ 0) (nZ 1) (nZ 0)) with (P 0 1 0). rewrite vnorm_of_unit by exact U. cbn [bind].
  unfold ltransformed. cbn [ldir lpos]. rewrite tnormal_lin.
  assert (UL : unit_vec (lin (kmatrix k) (P 0 1 0))) by (unfold unit_vec; rewrite lin_inner by exact B; exact U).
  rewrite vnorm_of_unit by exact UL. cbn [bind]. unfold newLine. rewrite vnorm_of_unit by exact UL. cbn [bind]. eexists. split; [reflexivity|]. cbn [ldir lpos].
  split; [exact UL|]. split; reflexivity.
Qed.
Lemma axis_form k l0 a : Built (kmatrix k) -> keyLine k = Ok l0 -> newLine (vxy (lpos l0)) (vxy (ldir l0)) = Ok a -> key_axis k a.
Proof.
  intros B H H0. destruct (keyLine_form k B) as (l & E & U & EP & ED). rewrite H in E. apply Ok_inj in E. subst l.
  destruct (newLine_ok _ _ _ H0) as (W & P1 & D1 & NZ). unfold key_axis. rewrite EP in P1. 
  set (o := transformed (P 0 0 0) (kmatrix k)) in *. set (back := transformed (P 0 1 0) (kmatrix k)) in *. clearbody o back. clear H H0 EP B.
  set (v := vxy (ldir l0)) in *.
  assert (LP : 0 < len v) by (apply len_pos; exact NZ).
  split; [split; [exact W|]; split|].
  - rewrite D1. unfold Z, scaled, P. cbn [vz]. change (vz v) with 0. unfold GeoSpec.Z. cbn [vz]. unfold v, vxy. rn. ring.
  - rewrite P1. reflexivity.
  - split; [rewrite P1; reflexivity|]. split; [rewrite P1; reflexivity|]. exists (len v). split; [exact LP|].
    rewrite D1. assert (EX : X v = X back - X o) by (unfold v; rewrite ED; reflexivity). assert (EY : Y v = Y back - Y o) by (unfold v; rewrite ED; reflexivity).
    rewrite <- EX, <- EY. clearbody v. clear - LP. assert (Q : forall x l : R, 0 < l -> x = l * (/ l * x)) by (intros; field; lra). split; apply Q, LP.
Qed.
Lemma axis_exists k : Built (kmatrix k) -> (exists a, key_axis k a) -> exists l0 a, keyLine k = Ok l0 /\ newLine (vxy (lpos l0)) (vxy (ldir l0)) = Ok a.
Proof.
  intros B (a & (U & ZA & _) & _ & _ & s & S & EX & EY). destruct (keyLine_form k B) as (l & E & _ & EP & ED). exists l. 
  unfold newLine. rewrite vnorm_spec; [eexists; split; [exact E|reflexivity]|].
  intros Q. pose proof (f_equal X Q) as QX. pose proof (f_equal Y Q) as QY. change (X (vxy (ldir l))) with (X (ldir l)) in QX. change (Y (vxy (ldir l))) with (Y (ldir l)) in QY.
  rewrite ED in QX, QY. change (X (minus ?p ?q)) with (X p - X q) in QX. change (Y (minus ?p ?q)) with (Y p - Y q) in QY. rewrite EX in QX. rewrite EY in QY.
  change (X origin) with 0 in QX. change (Y origin) with 0 in QY.
  assert (EX0 : X (ldir a) = 0) by (apply Rmult_integral in QX; destruct QX; lra). assert (EY0 : Y (ldir a) = 0) by (apply Rmult_integral in QY; destruct QY; lra).
  unfold unit_vec, inner in U. rewrite EX0, EY0, ZA in U. lra.
Qed.
Lemma axis_same k a a' : key_axis k a -> key_axis k a' -> a = a'.
Proof.
  intros ((U & Zd & Zp) & EX & EY & s & S & SX & SY) ((U' & Zd' & Zp') & EX' & EY' & s' & S' & SX' & SY').
  destruct a as [[px py pz] [dx dy dz]], a' as [[px' py' pz'] [dx' dy' dz']]. unfold unit_vec, inner, X, Y, Z in *. cbn [lpos ldir vx vy vz] in *. rn. subst.
  assert (E1 : s * dx = s' * dx') by lra. assert (E2 : s * dy = s' * dy') by lra.
  assert (SS : s * s = s' * s').
  { transitivity (s * s * (dx * dx + dy * dy)); [replace (dx * dx + dy * dy) with 1 by lra; ring|].
    transitivity ((s * dx) * (s * dx) + (s * dy) * (s * dy)); [ring|]. rewrite E1, E2.
    transitivity (s' * s' * (dx' * dx' + dy' * dy')); [ring|]. replace (dx' * dx' + dy' * dy') with 1 by lra. ring. }
  assert (s = s') as <- by (apply Rsqr_inj; unfold Rsqr; lra).
  assert (dx = dx') as <- by (apply Rmult_eq_reg_l with s; lra). assert (dy = dy') as <- by (apply Rmult_eq_reg_l with s; lra). reflexivity.
Qed.

Section Whole.
Variable c : @plan_cfg Rnum.
Let r := bossDiameter (bossCfg c) / 2.
Let margin := outerWallMargin (bossCfg c).
Hypothesis D0 : 0 <= bossDiameter (bossCfg c).
Variables k0 k1 : @key Rnum.
Hypothesis B0 : Built (kmatrix k0).
Hypothesis B1 : Built (kmatrix k1).
Hypothesis N0 : (2 <= length (boundsI k0))%nat.
Hypothesis N1 : (2 <= length (boundsI k1))%nat.
Variables wi wo : @line Rnum.
Hypothesis GI : ground_line wi.
Hypothesis GO : ground_line wo.
Hypothesis DD : ldir wi = ldir wo.

Lemma meet_inv l o v : ground_line l -> ground_line o -> lintersect l o = Ok v -> eps <= 1 - inner (ldir l) (ldir o) * inner (ldir l) (ldir o).
Proof.
  intros G G' H. destruct (Rlt_dec (Rabs (1 - inner (ldir l) (ldir o) * inner (ldir l) (ldir o))) eps) as [E|E].
  - apply (lintersect_err l o (proj1 G) (proj1 G')) in E. destruct E as (e & E). rewrite H in E. discriminate.
  - rewrite Rabs_right in E; [lra|]. apply Rle_ge. destruct G as (U & _), G' as (U' & _). unfold unit_vec in *.
    generalize dependent (ldir l). generalize dependent (ldir o). intros [x y z] U' [a b e] U. unfold inner, X, Y, Z in *. rn.
    pose proof (Rle_0_sqr (a * y - b * x)). pose proof (Rle_0_sqr (b * z - e * y)). pose proof (Rle_0_sqr (a * z - e * x)). unfold Rsqr in *.
    assert (Q : (a * a + b * b + e * e) * (x * x + y * y + z * z) - (a * x + b * y + e * z) * (a * x + b * y + e * z) =
      (a * y - b * x) * (a * y - b * x) + (b * z - e * y) * (b * z - e * y) + (a * z - e * x) * (a * z - e * x)) by ring.
    rewrite U, U' in Q. lra.
Qed.

Lemma far_clear b0 b1 rr pos : (2 <= length b0)%nat -> (2 <= length b1)%nat -> far b0 b1 rr pos ->
  forall w, spanned b0 w \/ spanned b1 w -> rr <= edist2 w pos.
Proof.
  intros L0 L1 F w Hw. destruct (Rle_dec rr 0) as [Q|Q]; [eapply Rle_trans; [exact Q|apply sqrt_pos]|].
  assert (K : forall b, (2 <= length b)%nat -> (b = b0 \/ b = b1) -> spanned b w -> rr <= edist2 w pos).
  { intros b L Hb Sb. destruct (F b Hb) as (d & Ed & Hd). destruct (hull_distance b pos L) as (d' & Ed' & _ & H). rewrite Ed in Ed'. apply Ok_inj in Ed'. subst d'.
    destruct (H ltac:(lra)) as (A & _). specialize (A w Sb). lra. }
  destruct Hw; [apply (K b0)|apply (K b1)]; auto.
Qed.
Lemma not_far_collides b0 b1 rr pos : (2 <= length b0)%nat -> (2 <= length b1)%nat -> ~ far b0 b1 rr pos -> collides rr b0 pos \/ collides rr b1 pos.
Proof.
  intros L0 L1 NF. destruct (far_dec b0 b1 L0 L1 rr pos) as (d0 & d1 & E0 & E1 & F). rewrite <- F in NF.
  assert (K : forall b d, (2 <= length b)%nat -> edistance2D (convexHull2D b) pos = Ok d -> d < rr -> collides rr b pos).
  { intros b d L E Hd. destruct (hull_main b L) as (LH & IN & _). cbn zeta in *.
    assert (NE : convexHull2D b <> []) by (intros Q; rewrite Q in LH; cbn in LH; lia).
    destruct (edistance_spec _ pos NE) as (d' & Ed & _ & D2). rewrite E in Ed. apply Ok_inj in Ed. subst d'.
    assert (CB : exists b', contains2D (convexHull2D b) pos = Ok b') by (eexists; apply contains_x). destruct CB as ([|] & Eb).
    - left. intros nx ny. apply NNPP. intros NX.
      assert (S : separated (convexHull2D b) pos).
      { exists nx, ny. intros p Hp. destruct (IN p Hp) as (v & Hv & ->). apply Rnot_le_lt. intros Q. apply NX. exists v. split; [exact Hv|exact Q]. }
      rewrite (contains_separated _ _ S) in Eb. discriminate.
    - right. destruct (D2 Eb) as ((i & w & Hi & Hw & Ew) & _). exists w. split; [eapply hull_spanned; eauto|]. lra. }
  destruct (Rlt_dec d0 rr) as [Q|Q]; [left; apply (K b0 d0); assumption|]. right. apply (K b1 d1); try assumption. lra.
Qed.

Definition fit_result (n : nat) a0 a1 pos wi' wo' : Prop :=
  moved_out (INR n / 4) wi wi' /\ moved_out (INR n / 4) wo wo' /\ boss_spot r margin wo' a0 a1 pos /\
  (forall w, spanned (boundsI k0) w \/ spanned (boundsI k1) w -> r <= edist2 w pos) /\
  forall k wk pos', (k < n)%nat -> moved_out (INR k / 4) wo wk -> boss_spot r margin wk a0 a1 pos' ->
    collides r (boundsI k0) pos' \/ collides r (boundsI k1) pos'.
Theorem fit_sound fuel pos wi' wo' : fitBoss2D c fuel (wi, wo) k0 k1 = Ok (pos, (wi', wo')) ->
  exists n a0 a1, key_axis k0 a0 /\ key_axis k1 a1 /\ fit_result n a0 a1 pos wi' wo'.
Proof.
  intros H. unfold fitBoss2D in H. apply bind_ok in H. destruct H as (l0 & E0 & H). apply bind_ok in H. destruct H as (l1 & E1 & H).
  apply bind_ok in H. destruct H as (a0 & A0 & H). apply bind_ok in H. destruct H as (a1 & A1 & H).
  cbn [snd] in H. change (@ndiv Rnum (bossDiameter (bossCfg c)) (@nZ Rnum 2)) with r in H. change (@nQ Rnum 1 4) with (1 / 4) in H.
  pose proof (axis_form k0 l0 a0 B0 E0 A0) as K0. pose proof (axis_form k1 l1 a1 B1 E1 A1) as K1.
  assert (R0 : 0 <= r) by (unfold r; lra).
  pose proof GO as (UO & ZO & _).
  assert (X : exists v0 v1 bl, lintersect bl a0 = Ok v0 /\ lintersect bl a1 = Ok v1 /\ ground_line bl /\ ldir bl = ldir wo).
  { destruct fuel as [|fuel]; [discriminate|]. cbn [bossLoop snd] in H.
    apply bind_ok in H. destruct H as (bl & EB & H). apply bind_ok in H. destruct H as (v0 & V0 & H). apply bind_ok in H. destruct H as (v1 & V1 & H).
    exists v0, v1, bl. split; [exact V0|]. split; [exact V1|]. rewrite opp_scale in EB.
    destruct (move_out wo (- (r + margin)) GO) as (bl' & EB' & (Q1 & Q2 & Q3)). 
    assert (EQ : Ok bl = Ok bl') by (transitivity (ltranslated wo (vscale (vopp (vortho2D (ldir wo))) (- (r + margin)))); [symmetry; exact EB|exact EB']). apply Ok_inj in EQ. subst bl'. auto. }
  destruct X as (v0 & v1 & bl & V0 & V1 & GB & DB).
  pose proof (meet_inv bl a0 v0 GB (proj1 K0) V0) as X0. pose proof (meet_inv bl a1 v1 GB (proj1 K1) V1) as X1. rewrite DB in X0, X1.
  destruct (loop_sound (boundsI k0) (boundsI k1) N0 N1 a0 a1 r margin (proj1 K0) (proj1 K1) R0 (ldir wo) ZO X0 X1 fuel wi wo pos wi' wo' GI GO DD eq_refl H)
    as (n & M1 & M2 & S & F & A).
  exists n, a0, a1. split; [exact K0|]. split; [exact K1|]. split; [exact M1|]. split; [exact M2|]. split; [exact S|].
  split; [apply far_clear; assumption|]. intros k wk pos' Hk Mk Sk. apply not_far_collides; try assumption. apply (A k wk pos'); assumption.
Qed.
Theorem fit_terminates a0 a1 : key_axis k0 a0 -> key_axis k1 a1 ->
  eps <= 1 - inner (ldir wo) (ldir a0) * inner (ldir wo) (ldir a0) -> eps <= 1 - inner (ldir wo) (ldir a1) * inner (ldir wo) (ldir a1) ->
  exists n, forall fuel, (n <= fuel)%nat -> exists pos w, fitBoss2D c fuel (wi, wo) k0 k1 = Ok (pos, w).
Proof.
  intros K0 K1 X0 X1. pose proof GO as (UO & ZO & _).
  assert (R0 : 0 <= r) by (unfold r; lra).
  destruct (axis_exists k0 B0 (ex_intro _ a0 K0)) as (l0 & a0' & E0 & A0). destruct (axis_exists k1 B1 (ex_intro _ a1 K1)) as (l1 & a1' & E1 & A1).
  pose proof (axis_same k0 a0' a0 (axis_form k0 l0 a0' B0 E0 A0) K0). pose proof (axis_same k1 a1' a1 (axis_form k1 l1 a1' B1 E1 A1) K1). subst a0' a1'.
  destruct (loop_terminates (boundsI k0) (boundsI k1) N0 N1 a0 a1 r margin (proj1 K0) (proj1 K1) R0 (ldir wo) ZO X0 X1 wi wo GI GO DD eq_refl) as (n & T).
  exists n. intros fuel Hf. destruct (T fuel Hf) as (pos & w & E). exists pos, w.
  unfold fitBoss2D. rewrite E0, E1. cbn [bind]. rewrite A0, A1. cbn [bind snd].
  change (@ndiv Rnum (bossDiameter (bossCfg c)) (@nZ Rnum 2)) with r. exact E.
Qed.
End Whole.
