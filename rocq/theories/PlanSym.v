(** Plans of the two halves of a symmetric layout. *)
From Coq Require Import ZArith List Bool.
From Verif Require Import Num GeoModel EdgeModel ArcModel KeyModel LayoutModel BossModel PlanModel.
Import ListNotations.

Section Sym.
Context {N : Num}.
Definition twins (y : @layout N) : Prop := fingersL y = fingersR y /\ thumbL y = thumbR y.
Lemma twins_fingers g f y : twins y -> twins (mapFingers g f y).
Proof. intros (A & B). split; cbn [mapFingers fingersL fingersR thumbL thumbR]; [rewrite A; reflexivity|exact B]. Qed.
Lemma twins_thumb f y : twins y -> twins (mapThumb f y).
Proof. intros (A & B). split; cbn [mapThumb fingersL fingersR thumbL thumbR]; [exact A|rewrite B; reflexivity]. Qed.
Lemma twins_all f y : twins y -> twins (mapAll f y).
Proof. intros H. apply twins_thumb, twins_fingers, twins_fingers, H. Qed.
Lemma twins_halves y : twins y -> halves y SideLeft = halves y SideRight.
Proof. intros (A & _). cbn [halves]. rewrite A. reflexivity. Qed.
Lemma twins_group y g : twins y -> lgroup y g SideLeft = lgroup y g SideRight.
Proof. intros H. unfold lgroup. rewrite (twins_halves y H). reflexivity. Qed.
Lemma twins_thumbs y : twins y -> lthumb y SideLeft = lthumb y SideRight.
Proof. intros (_ & B). exact B. Qed.
Lemma twins_lall y : twins y -> lall y SideLeft = lall y SideRight.
Proof. intros H. unfold lall, alnum, pinky. rewrite !(twins_group y) , (twins_thumbs y) by exact H. reflexivity. Qed.
Lemma twins_perCol y g i : twins y -> lperCol y g i SideLeft = lperCol y g i SideRight.
Proof. intros H. unfold lperCol, lcol. rewrite (twins_halves y H). reflexivity. Qed.
Lemma bind_ext {A B} (m : res A) (f g : A -> res B) : (forall x, m = Ok x -> f x = g x) -> bind m f = bind m g.
Proof. intros H. destruct m as [x|e]; [apply H; reflexivity|reflexivity]. Qed.

Variable c : @plan_cfg N.
Variable fuel : nat.
Hypothesis TW : forall y, newLayout (keyCfg c) (layoutCfg c) = Ok y -> twins y.
Lemma tent_same : planTent c SideLeft = planTent c SideRight.
Proof.
  unfold planTent. apply bind_ext. intros y E. specialize (TW y E). destruct (nleb _ _); [reflexivity|]. do 24 (apply bind_ext; intros ? _).
  match goal with |- context[pinky ?y SideLeft] => assert (E1 : pinky y SideLeft = pinky y SideRight) end; [|rewrite E1; reflexivity].
  apply twins_group. match goal with |- twins (if ?b then _ else _) => destruct b end;
    repeat first [apply twins_fingers|apply twins_thumb]; exact TW.
Qed.
Lemma tent_twins s y ps : planTent c s = Ok (y, ps) -> twins y.
Proof.
  unfold planTent. intros H. apply bind_ok in H. destruct H as (y0 & E & H). specialize (TW y0 E). destruct (nleb _ _) in H; [discriminate|].
  do 27 (apply bind_ok in H; destruct H as (? & _ & H)). injection H as <- _.
  match goal with |- twins (if ?b then _ else _) => destruct b end; repeat first [apply twins_fingers|apply twins_thumb]; exact TW.
Qed.
Lemma bosses_same y ps w : twins y -> fitBosses c fuel y ps SideLeft w = fitBosses c fuel y ps SideRight w.
Proof.
  intros T. unfold fitBosses. destruct w as (wB, wF). unfold perPinkyCol, perAlnumCol. rewrite !(twins_perCol y) by exact T. rewrite (twins_thumbs y T). reflexivity.
Qed.
Definition otherHalf (p : @plan N) : @plan N :=
  mkPlan SideLeft (planLayout p) (planPlanes p) (planThumbL p) (planPoints p) (planBoss p) (planHitch_ p).
Theorem plan_same : newPlan c fuel SideLeft = rmap otherHalf (newPlan c fuel SideRight).
Proof.
  unfold newPlan. rewrite tent_same. destruct (planTent c SideRight) as [[y1 ps1]|e] eqn:E1; [|reflexivity]. cbn [bind].
  pose proof (tent_twins _ _ _ E1) as T1. unfold planTilt. cbn [fst snd].
  destruct (mapPlanesA _ ps1) as [ps2|e]; [|reflexivity]. cbn [bind fst].
  assert (T2 : twins (mapAll (turnKey (tiltSplitMatrix c)) y1)) by apply twins_all, T1.
  set (y2 := mapAll _ y1) in *. clearbody y2.
  assert (W : planWalls c fuel SideLeft (y2, ps2) = planWalls c fuel SideRight (y2, ps2)).
  { unfold planWalls. cbn [opposite]. do 2 (apply bind_ext; intros ? _). rewrite (bosses_same y2) by exact T2. apply bind_ext. intros o _. rewrite (bosses_same y2) by exact T2. reflexivity. }
  rewrite W. destruct (planWalls c fuel SideRight (y2, ps2)) as [w|e]; [|reflexivity]. cbn [bind].
  destruct (planX c y2 w) as [[y3 w3]|e] eqn:E3; [|reflexivity]. cbn [bind].
  assert (T3 : twins y3).
  { unfold planX in E3. cbv zeta in E3. do 6 (apply bind_ok in E3; destruct E3 as (? & _ & E3)). destruct (wBoss w) as (((?, ?), ?), ?). injection E3 as <- _. apply twins_all, T2. }
  destruct (thumbCorner y3 w3) as [[tl pl]|e]; [|reflexivity]. cbn [bind fst snd].
  destruct (ridgeFront c y3 w3 tl pl) as [ridge|e]; [|reflexivity]. cbn [bind].
  destruct (bodyPoints w3 pl ridge) as [pts|e]; [|reflexivity]. cbn [bind].
  assert (Z : planZ c SideLeft y3 w3 pl pts = planZ c SideRight y3 w3 pl pts).
  { unfold planZ. apply bind_ext. intros mz _. cbv zeta. rewrite (twins_lall (mapAll _ y3)) by apply twins_all, T3. reflexivity. }
  rewrite Z. destruct (planZ c SideRight y3 w3 pl pts) as [[[[y4 ps4] tl4] pts4]|e]; [|reflexivity]. cbn [bind].
  destruct (planBosses c w3 ps4) as [bs|e]; [|reflexivity]. cbn [bind].
  destruct (palm c) as [h|]; [|reflexivity]. destruct (planHitch c h pts4); reflexivity.
Qed.
End Sym.
