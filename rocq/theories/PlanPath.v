(** How the planner moves the keys: each group moves as one rigid body, and all groups
    move together after tenting. *)
From Coq Require Import Reals Lra Psatz List Bool ZArith Lia.
From Verif Require Import Num GeoModel GeoSpec GeoMat GeoRigid GeoPlane GeoIso EdgeModel ArcModel
  KeyModel LayoutModel LayoutSpec LayoutProof BossModel PlanModel HullSpec PlanSpec WallProof PlanMove PlanTent.
Import ListNotations.
Open Scope R_scope.

Lemma carries_comp g1 g2 f1 f2 : carries g1 f1 -> carries g2 f2 -> carries (fun q => g2 (g1 q)) (fun k => f2 (f1 k)).
Proof.
  intros C1 C2 k B. destruct (C1 k B) as (B1 & T1 & E1 & F1). destruct (C2 (f1 k) B1) as (B2 & T2 & E2 & F2).
  split; [exact B2|]. split; [intros q; rewrite T2, T1; reflexivity|]. split; congruence.
Qed.
Lemma carries_ext g g' f : (forall q, g q = g' q) -> carries g f -> carries g' f.
Proof. intros E C k B. destruct (C k B) as (B1 & T1 & E1 & F1). split; [exact B1|]. split; [intros q; rewrite T1; apply E|auto]. Qed.
Lemma turnY_pt a (c q : pt) : transformed q (mrotY mid a (Some c)) = rotY_pt a c q.
Proof. rewrite app_rotY by apply affine_mid. cbn [ctr]. rewrite transformed_mid. reflexivity. Qed.

Section Path.
Variable c : @plan_cfg Rnum.
Record moved (y0 y : @layout Rnum) (off pv d : pt) (M : @mtx Rnum) : Prop := mkMoved {
  m_built : Built M;
  m_down : X d = 0 /\ Z d = 0 /\ Y d <= 0;
  m_alnum : exists f, carries (fun q => transformed (rotY_pt (alnumTentAngle c) pv (plus q off)) M) f /\ forall s, alnum y s = map f (alnum y0 s);
  m_thumb : exists f, carries (fun q => transformed (plus (rotY_pt (thumbTentAngle c) pv (plus q off)) d) M) f /\ forall s, lthumb y s = map f (lthumb y0 s);
  m_pinky : exists f, carries (fun q => transformed (rotY_pt (pinkyTentAngle c) pv q) M) f /\ forall s, pinky y s = map f (pinky y0 s) }.
Lemma moved_more y0 y off pv d M f N : Built N -> carries (fun q => transformed q N) f -> moved y0 y off pv d M -> moved y0 (mapAll f y) off pv d (mmul M N).
Proof.
  intros BN CN [B D (fa & CA & EA) (ft & CT & ET) (fp & CP & EP)].
  assert (TM : forall q, transformed q (mmul M N) = transformed (transformed q M) N) by (intros q; apply transformed_mul, built_affine, B).
  constructor; [apply B_mul; assumption|exact D| | |].
  - exists (fun k => f (fa k)). split; [eapply carries_ext; [|exact (carries_comp _ _ _ _ CA CN)]; intros q; rewrite TM; reflexivity|]. intros s. rewrite alnum_all, EA, map_map. reflexivity.
  - exists (fun k => f (ft k)). split; [eapply carries_ext; [|exact (carries_comp _ _ _ _ CT CN)]; intros q; rewrite TM; reflexivity|]. intros s. rewrite thumb_all, ET, map_map. reflexivity.
  - exists (fun k => f (fp k)). split; [eapply carries_ext; [|exact (carries_comp _ _ _ _ CP CN)]; intros q; rewrite TM; reflexivity|]. intros s. rewrite pinky_all, EP, map_map. reflexivity.
Qed.
Lemma moved_shift y0 y off pv d M v : moved y0 y off pv d M -> exists M', moved y0 (mapAll (move v) y) off pv d M'.
Proof.
  intros H. exists (mmul M (mtranslated mid v)). apply moved_more; [apply B_tra, B_id| |exact H].
  eapply carries_ext; [|exact (carries_move v)]. intros q. rewrite app_tra by apply affine_mid. rewrite transformed_mid. reflexivity.
Qed.
Lemma planTent_path side y ps : planTent c side = Ok (y, ps) -> exists y0 off ka kp d,
  newLayout (keyCfg c) (layoutCfg c) = Ok y0 /\ tentCreaseOffset c = Ok off /\
  (In ka (alnum y0 SideBoth) /\ forall k, In k (alnum y0 SideBoth) -> X (kposition k) <= X (kposition ka)) /\
  (In kp (pinky y0 SideBoth) /\ forall k, In k (pinky y0 SideBoth) -> X (kposition kp) <= X (kposition k)) /\
  moved y0 y off (P ((X (kposition ka) + X off + X (kposition kp)) / 2) ((Y (kposition ka) + Y (kposition kp)) / 2) ((Z (kposition ka) + Z (kposition kp)) / 2)) d mid.
Proof.
  unfold planTent. intros H.
  apply bind_ok in H. destruct H as (y0 & L0 & H). destruct (nleb (alnumTentAngle c) (thumbTentAngle c)); [discriminate|].
  apply bind_ok in H. destruct H as (co & CO & H). cbv zeta in H.
  apply bind_ok in H. destruct H as (ka & EKA & H). apply bind_ok in H. destruct H as (kp & EKP & H).
  set (pivot := vhalf (vadd (kposition ka) (kposition kp))) in H.
  set (A := @mrotY Rnum mid (alnumTentAngle c) (Some pivot)) in H. set (T := @mrotY Rnum mid (thumbTentAngle c) (Some pivot)) in H. set (Pm := @mrotY Rnum mid (pinkyTentAngle c) (Some pivot)) in H.
  do 13 (apply bind_ok in H; destruct H as (? & _ & H)).
  set (y4 := mapFingers 1 (turnKey Pm) _) in H.
  do 3 (apply bind_ok in H; destruct H as (? & _ & H)).
  apply bind_ok in H. destruct H as ([fI fO] & EF & H). cbn [fst snd] in H.
  do 4 (apply bind_ok in H; destruct H as (? & _ & H)).
  set (delta := V (nZ 0) _ (nZ 0)) in H.
  set (y5 := if nltb (vy delta) (nZ 0) then mapThumb (move delta) y4 else y4) in H.
  do 3 (apply bind_ok in H; destruct H as (? & _ & H)). injection H as <- _.
  assert (BA : Built A) by apply B_rotY, B_id. assert (BT : Built T) by apply B_rotY, B_id. assert (BP : Built Pm) by apply B_rotY, B_id.
  assert (LS : forall s, alnum y4 s = map (fun k => turnKey A (move co k)) (alnum y0 s) /\ pinky y4 s = map (turnKey Pm) (pinky y0 s) /\ lthumb y4 s = map (fun k => turnKey T (move co k)) (lthumb y0 s))
    by (intros s; apply lgroup_fingers_thumbs).
  clearbody y4.
  destruct (crease_form c co CO) as (Yco & Zco).
  assert (FR : forall k, In k (lall y0 SideBoth) -> fresh k) by (apply (newLayout_fresh (keyCfg c) (layoutCfg c)), L0).
  set (y1 := mapThumb (move co) (mapFingers 0 (move co) y0)) in EKA, EKP.
  assert (A1 : alnum y1 SideBoth = map (move co) (alnum y0 SideBoth)) by (unfold y1, alnum; rewrite lgroup_thumb, lgroup_map; reflexivity).
  assert (P1 : pinky y1 SideBoth = pinky y0 SideBoth) by (unfold y1, pinky; rewrite lgroup_thumb, lgroup_map; reflexivity).
  pose proof (bestKey_in _ _ _ EKA) as IA. pose proof (bestKey_max _ _ EKA) as MA. pose proof (bestKey_in _ _ _ EKP) as IP. pose proof (bestKey_min _ _ EKP) as MP.
  change (lgroup y1 0 SideBoth) with (alnum y1 SideBoth) in *. rewrite A1 in IA, MA. rewrite P1 in IP, MP.
  apply in_map_iff in IA. destruct IA as (ka0 & EKa & IA).
  assert (POS : forall k, In k (alnum y0 SideBoth) -> kposition (move co k) = plus (kposition k) co).
  { intros k Hk. destruct (FR k) as ((B & _) & _); [apply lall_in; auto|]. destruct (carries_move co k B) as (_ & Q & _). unfold kposition. apply Q. }
  set (d := if nltb (vy delta) (nZ 0) then delta else origin).
  exists y0, co, ka0, kp, d. split; [exact L0|]. split; [exact CO|].
  split. { split; [exact IA|]. intros k Hk. specialize (MA (move co k) (in_map _ _ _ Hk)). rewrite <- EKa, !POS in MA by assumption.
    change (X (plus (kposition k) co)) with (X (kposition k) + X co) in MA. change (X (plus (kposition ka0) co)) with (X (kposition ka0) + X co) in MA. lra. }
  split; [split; assumption|].
  match goal with |- moved _ _ _ ?p _ _ => assert (EP : pivot = p) end.
  { unfold pivot. rewrite <- EKa, POS by exact IA. unfold vhalf, vadd, plus, P. apply pt_ext; unfold P, X, Y, Z in *; cbn [vx vy vz]; rn; [reflexivity|rewrite Yco; rn|rewrite Zco; rn]; lra. }
  rewrite <- EP. clear EP.
  assert (TR : forall (q : pt), transformed q mid = q) by (intros q; apply transformed_mid).
  constructor.
  - apply B_id.
  - unfold d. destruct (nltb (vy delta) (nZ 0)) eqn:E; [|unfold origin, P, X, Y, Z; cbn [vx vy vz]; rn; split; [reflexivity|split; [reflexivity|lra]]].
    apply Rltb_true in E. split; [reflexivity|]. split; [reflexivity|]. unfold Y. rn. lra.
  - exists (fun k => turnKey A (move co k)). split.
    + eapply carries_ext; [|exact (carries_comp _ _ _ _ (carries_move co) (carries_turn A BA))]. intros q. cbn beta. rewrite TR. apply turnY_pt.
    + intros s. unfold y5. destruct (nltb (vy delta) (nZ 0)); [unfold alnum in *; rewrite lgroup_thumb|]; apply (LS s).
  - unfold y5, d. destruct (nltb (vy delta) (nZ 0)).
    + exists (fun k => move delta (turnKey T (move co k))). split.
      * eapply carries_ext; [|exact (carries_comp _ _ _ _ (carries_comp _ _ _ _ (carries_move co) (carries_turn T BT)) (carries_move delta))]. intros q. cbn beta. rewrite TR. unfold T. rewrite turnY_pt. reflexivity.
      * intros s. rewrite lthumb_thumb. rewrite (proj2 (proj2 (LS s))), map_map. reflexivity.
    + exists (fun k => turnKey T (move co k)). split; [|intros s; apply (LS s)].
      eapply carries_ext; [|exact (carries_comp _ _ _ _ (carries_move co) (carries_turn T BT))]. intros q. cbn beta. rewrite TR, plus_0_r. apply turnY_pt.
  - exists (turnKey Pm). split; [eapply carries_ext; [|exact (carries_turn Pm BP)]; intros q; cbn beta; rewrite TR; apply turnY_pt|].
    intros s. unfold y5. destruct (nltb (vy delta) (nZ 0)); [unfold pinky in *; rewrite lgroup_thumb|]; apply (LS s).
Qed.
Theorem newPlan_path fuel side p : newPlan c fuel side = Ok p -> exists y0 off ka kp d M,
  newLayout (keyCfg c) (layoutCfg c) = Ok y0 /\ tentCreaseOffset c = Ok off /\
  (In ka (alnum y0 SideBoth) /\ forall k, In k (alnum y0 SideBoth) -> X (kposition k) <= X (kposition ka)) /\
  (In kp (pinky y0 SideBoth) /\ forall k, In k (pinky y0 SideBoth) -> X (kposition kp) <= X (kposition k)) /\
  moved y0 (planLayout p) off (P ((X (kposition ka) + X off + X (kposition kp)) / 2) ((Y (kposition ka) + Y (kposition kp)) / 2) ((Z (kposition ka) + Z (kposition kp)) / 2)) d M.
Proof.
  intros H. unfold newPlan in H. apply bind_ok in H. destruct H as ([y1 ps1] & E1 & H). apply bind_ok in H. destruct H as ([y2 ps2] & E2 & H).
  apply bind_ok in H. destruct H as (w & E3 & H). cbn [fst] in H. apply bind_ok in H. destruct H as ([y3 w3] & E4 & H).
  apply bind_ok in H. destruct H as ([thumbLine tl] & E5 & H). cbn [fst snd] in H. apply bind_ok in H. destruct H as ([rI rO] & E6 & H). apply bind_ok in H. destruct H as (pts & E7 & H).
  apply bind_ok in H. destruct H as ([[[y ps] tl'] pts'] & E8 & H). apply bind_ok in H. destruct H as (bs & E9 & H). apply bind_ok in H. destruct H as (h & _ & H). apply Ok_inj in H. subst p. cbn [planLayout].
  destruct (planTent_path side y1 ps1 E1) as (y0 & off & ka & kp & d & L0 & CO & KA & KP & M1). exists y0, off, ka, kp, d.
  assert (EY2 : y2 = mapAll (turnKey (tiltSplitMatrix c)) y1) by (unfold planTilt in E2; apply bind_ok in E2; destruct E2 as (? & _ & E2); injection E2 as <- _; reflexivity).
  assert (EY3 : exists v, y3 = mapAll (move v) y2).
  { unfold planX in E4. cbv zeta in E4. do 6 (apply bind_ok in E4; destruct E4 as (? & _ & E4)). destruct (wBoss w) as (((?, ?), ?), ?). injection E4 as <- _. eexists. reflexivity. }
  assert (EY : exists v, y = mapAll (move v) y3).
  { unfold planZ in E8. cbv zeta in E8. do 5 (apply bind_ok in E8; destruct E8 as (? & _ & E8)).
    destruct (nltb _ _) in E8; [discriminate|]. match type of E8 with (if ?b then _ else _) = _ => destruct b end; [discriminate|]. injection E8 as <- _ _ _. eexists. reflexivity. }
  assert (BM : Built (tiltSplitMatrix c)) by (unfold tiltSplitMatrix; apply B_rotZ, B_rotX, B_id).
  pose proof (moved_more _ _ _ _ _ _ _ _ BM (carries_turn _ BM) M1) as M2. rewrite <- EY2 in M2.
  destruct EY3 as (v3 & ->). destruct EY as (v & ->). destruct (moved_shift _ _ _ _ _ _ v3 M2) as (N3 & M3). destruct (moved_shift _ _ _ _ _ _ v M3) as (N4 & M4).
  exists N4. auto.
Qed.
End Path.
