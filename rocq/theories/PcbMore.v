(** The footprint of two plans: when it is written, and when it is not. *)
From Coq Require Import Reals Lra Psatz List Bool ZArith Lia String.
From Verif Require Import Num GeoModel GeoSpec GeoMat GeoRigid GeoPlane GeoIso EdgeModel ArcModel
  KeyModel LayoutModel LayoutSpec LayoutProof BossModel PlanModel HullSpec PlanSpec WallProof PlanMove PlanTent PlanPath PcbModel PcbSpec PcbProof.
Import ListNotations.
Open Scope R_scope.

Section Foot.
Variable c : @plan_cfg Rnum.
Variable th : R.
Notation TA := (alnumTentAngle c).
Notation TP := (pinkyTentAngle c).
Notation TT := (thumbTentAngle c).
(* the distance between the groups on the board *)
Lemma crease_x (off : pt) : tentCreaseOffset c = Ok off ->
  off = P (- (2 * (columnPitch (keyCfg c) / 2 / cos ((TA - TP) / 2) + capTopToPlate c * tan ((TA - TP) / 2) - columnPitch (keyCfg c) / 2))) 0 0.
Proof.
  intros CO. unfold tentCreaseOffset in CO. cbv zeta in CO. apply bind_ok in CO. destruct CO as (ph & E1 & CO). apply bind_ok in CO. destruct CO as (hh & E2 & CO). apply Ok_inj in CO.
  set (u := (TA - TP) / 2).
  change (@ncos Rnum (@ndiv Rnum (@nsub Rnum (alnumTentAngle c) (pinkyTentAngle c)) (@nZ Rnum 2))) with (cos u) in *.
  change (@nsin Rnum (@ndiv Rnum (@nsub Rnum (alnumTentAngle c) (pinkyTentAngle c)) (@nZ Rnum 2))) with (sin u) in *.
  apply pdiv_ok in E1. destruct E1 as (N1 & E1). apply pdiv_ok in E2. destruct E2 as (_ & E2). rewrite <- CO, E1, E2. clear CO E1 E2. unfold tan.
  apply pt_ext; unfold P, X, Y, Z; cbn [vx vy vz]; rn; [|reflexivity|reflexivity]. match goal with |- ?x = ?y => change (@eq R x y) end. field. exact N1.
Qed.
Lemma rotY_shift (pv s : pt) : rotY_pt 0 pv s = s. Proof. apply rotY_0. Qed.
Theorem flat_groups fuel side p : newPlan c fuel side = Ok p -> 0 < cos (TA - TP) -> TT = TP ->
  exists y0 first rest y dy, newLayout (keyCfg c) (layoutCfg c) = Ok y0 /\ pinky y0 SideBoth = (first :: rest)%list /\ flattenLayout c th (planLayout p) = Ok y /\ dy <= 0 /\
  let u := (TA - TP) / 2 in let o := kposition first in
  let gap := 2 * (columnPitch (keyCfg c) / 2 / cos u + capTopToPlate c * tan u - columnPitch (keyCfg c) / 2) in
  Z o = 0 /\
  forall s, shifted (P (- X o) (- Y o) 0) (pinky y0 s) (pinky y s) /\
    shifted (P (- gap - 2 * (innerHeight (keyCfg c) + th) * tan u - X o) (- Y o) 0) (alnum y0 s) (alnum y s) /\
    shifted (P (- gap - X o) (dy - Y o) 0) (lthumb y0 s) (lthumb y s).
Proof.
  intros H C ET. destruct (flatten_spec c th fuel side p H C) as (y0 & first & rest & off & pv & d & y & L0 & CO & EF & F & (ZP & DX & DZ & DY) & _ & FS).
  pose proof (newLayout_fresh _ _ _ L0) as FR. apply crease_x in CO.
  assert (ZF : Z (kposition first) = 0). { destruct (FR first) as (_ & L); [apply lall_in; right; left; rewrite EF; left; reflexivity|]. unfold kposition. rewrite (L vzero). reflexivity. }
  exists y0, first, rest, y, (Y d). do 4 (split; [assumption|]). cbv zeta. split; [exact ZF|]. intros s. destruct (FS s) as (SP & SA & ST).
  assert (IMP : forall {A B} (Q Q' : A -> B -> Prop) l m, (forall a b, Q a b -> Q' a b) -> Forall2 Q l m -> Forall2 Q' l m) by (intros A B Q Q' l m I FF; induction FF; constructor; auto).
  set (o := kposition first) in *. clearbody o. rewrite CO in *. clear CO. set (gap := - (2 * (columnPitch (keyCfg c) / 2 / _ + _ - _))) in *.
  split; [|split]; unfold shifted in *.
  - eapply IMP; [|exact SP]. intros a b Q q. rewrite Q. f_equal. unfold minus, origin, P. apply pt_ext; unfold X, Y, Z in *; cbn [vx vy vz]; rn; lra.
  - eapply IMP; [|exact SA]. intros a b Q q. rewrite Q. f_equal. unfold minus, plus, P, unfolded, depth, gap. apply pt_ext; unfold X, Y, Z in *; cbn [vx vy vz]; rn; lra.
  - eapply IMP; [|exact ST]. intros a b Q q. rewrite Q, ET. replace (TP - TP) with 0 by ring. rewrite rotY_0. unfold minus, plus, P, gap. apply pt_ext; unfold X, Y, Z in *; cbn [vx vy vz]; rn; lra.
Qed.
Lemma shifted_flat v l0 l k : Z v = 0 -> (forall k0, In k0 l0 -> level k0) -> shifted v l0 l -> In k l -> Z (kposition k) = 0.
Proof.
  intros ZV L FF I. induction FF as [|a b l0 l Q _ IH]; [destruct I|]. destruct I as [<-|I].
  - unfold kposition. rewrite Q. change (Z (plus ?p ?q)) with (Z p + Z q). rewrite (L a (or_introl eq_refl)), ZV. change (Z vzero) with 0. ring.
  - apply IH; [|exact I]. intros k0 J. apply L. right. exact J.
Qed.
Lemma flat_all fuel side p : newPlan c fuel side = Ok p -> 0 < cos (TA - TP) -> TT = TP -> exists y, flattenLayout c th (planLayout p) = Ok y /\ (forall s k, In k (lall y s) -> Z (kposition k) = 0) /\ exists k r, pinky y SideBoth = (k :: r)%list.
Proof.
  intros H C ET. destruct (flat_groups fuel side p H C ET) as (y0 & first & rest & y & dy & L0 & EF & F & _ & ZF & FS). exists y. split; [exact F|].
  pose proof (newLayout_fresh _ _ _ L0) as FR. split.
  - intros s k I. destruct (FS s) as (SP & SA & ST). unfold lall in I. rewrite !in_app_iff in I.
    destruct I as [I|[I|I]]; [refine (shifted_flat _ _ _ k _ _ SA I)|refine (shifted_flat _ _ _ k _ _ SP I)|refine (shifted_flat _ _ _ k _ _ ST I)]; try reflexivity; intros k0 J; apply (FR k0), (lall_side y0 s); unfold lall; rewrite !in_app_iff; auto.
  - destruct (FS SideBoth) as (SP & _). unfold shifted in SP. rewrite EF in SP. inversion SP; subst. eauto.
Qed.
Variable pretty : R -> string.
Variable mount : option (@mount_cfg Rnum).
Lemma not_flat_false (k : @key Rnum) : Z (kposition k) = 0 -> notFlat k = false.
Proof. intros E. unfold notFlat. destruct (nltb _ _) eqn:L; [|reflexivity]. apply Rltb_true in L. unfold Z in E. rewrite E in L. rn. rewrite Rabs_R0 in L. lra. Qed.
Theorem footprint_written fuel fuel' pr pl : newPlan c fuel SideRight = Ok pr -> newPlan c fuel' SideLeft = Ok pl -> 0 < cos (TA - TP) -> TT = TP ->
  exists s, footprint pretty c th mount (planLayout pr) (planLayout pl) = Ok s /\ s <> ""%string.
Proof.
  intros HR HL C ET. destruct (flat_all _ _ _ HR C ET) as (yr & FR & ZR & kr & rr & PR). destruct (flat_all _ _ _ HL C ET) as (yl & FL & ZL & kl & rl & PL).
  unfold footprint. rewrite FR, FL. cbn [bind].
  assert (E : existsb notFlat (lall yr SideBoth ++ lall yl SideBoth) = false).
  { destruct (existsb _ _) eqn:E; [|reflexivity]. apply existsb_exists in E. destruct E as (k & I & E). rewrite not_flat_false in E; [discriminate|]. apply in_app_iff in I. destruct I as [I|I]; [exact (ZR _ k I)|exact (ZL _ k I)]. }
  rewrite E. cbv zeta. unfold writeMounts. rewrite PR, PL. cbn [pyidx]. destruct mount as [mt|]; cbn [bind]; eexists; (split; [reflexivity|discriminate]).
Qed.
(* a thumb cluster that is tented otherwise is not flat *)
Theorem footprint_tented fuel fuel' pr pl y0 i j k k' : newPlan c fuel SideRight = Ok pr -> newPlan c fuel' SideLeft = Ok pl -> 0 < cos (TA - TP) ->
  newLayout (keyCfg c) (layoutCfg c) = Ok y0 -> nth_error (lthumb y0 SideBoth) i = Some k -> nth_error (lthumb y0 SideBoth) j = Some k' ->
  2 / 1000000 < Rabs ((X (kposition k) - X (kposition k')) * sin (TT - TP)) ->
  footprint pretty c th mount (planLayout pr) (planLayout pl) = Ok ""%string.
Proof.
  intros HR HL C L0 Hi Hj GAP. destruct (flatten_spec c th _ _ _ HR C) as (y0' & first & rest & off & pv & d & yr & L0' & _ & _ & FR & (ZP & DX & DZ & DY) & _ & FS).
  destruct (flatten_spec c th _ _ _ HL C) as (_ & _ & _ & _ & _ & _ & yl & _ & _ & _ & FL & _). rewrite L0 in L0'. apply Ok_inj in L0'. subst y0'.
  unfold footprint. rewrite FR, FL. cbn [bind].
  assert (E : existsb notFlat (lall yr SideBoth ++ lall yl SideBoth) = true); [|rewrite E; reflexivity].
  destruct (FS SideBoth) as (_ & _ & ST). pose proof (newLayout_fresh _ _ _ L0) as FRE.
  assert (N2 : forall {A B} (Q : A -> B -> Prop) l m i a, Forall2 Q l m -> nth_error l i = Some a -> exists b, nth_error m i = Some b /\ Q a b).
  { clear. intros A B Q l m i a FF. revert i. induction FF as [|x z l m xz _ IH]; intros [|i] Hi; try discriminate; [injection Hi as <-; exists z; auto|exact (IH i Hi)]. }
  destruct (N2 _ _ _ _ _ _ _ ST Hi) as (b & Hb & Qb). destruct (N2 _ _ _ _ _ _ _ ST Hj) as (b' & Hb' & Qb').
  assert (ZK : forall x, In x (lthumb y0 SideBoth) -> Z (kposition x) = 0). { intros x I. destruct (FRE x) as (_ & L); [apply lall_in; auto|]. unfold kposition. rewrite (L vzero). reflexivity. }
  assert (Z1 := ZK k (nth_error_In _ _ Hi)). assert (Z2 := ZK k' (nth_error_In _ _ Hj)).
  assert (D : Z (kposition b) - Z (kposition b') = - ((X (kposition k) - X (kposition k')) * sin (TT - TP))).
  { unfold kposition in *. rewrite Qb, Qb'. set (p := transformed vzero (kmatrix k)) in *. set (p' := transformed vzero (kmatrix k')) in *. set (f := transformed vzero (kmatrix first)). clearbody p p' f. set (a := TT - TP).
    change (Z (minus (plus (rotY_pt a pv (plus p off)) d) f)) with (Z pv + (((Z p + Z off) - Z pv) * cos a - ((X p + X off) - X pv) * sin a) + Z d - Z f).
    change (Z (minus (plus (rotY_pt a pv (plus p' off)) d) f)) with (Z pv + (((Z p' + Z off) - Z pv) * cos a - ((X p' + X off) - X pv) * sin a) + Z d - Z f). rewrite Z1, Z2. ring. }
  assert (W : 1 / 1000000 < Rabs (Z (kposition b)) \/ 1 / 1000000 < Rabs (Z (kposition b'))).
  { rewrite <- Rabs_Ropp, <- D in GAP. set (u := Z (kposition b)) in *. set (w := Z (kposition b')) in *. destruct (Rlt_dec (1 / 1000000) (Rabs u)) as [|NU]; [left; assumption|right].
    pose proof (Rabs_triang u (- w)) as T. rewrite Rabs_Ropp in T. unfold Rminus in GAP. lra. }
  assert (NF : forall x : @key Rnum, 1 / 1000000 < Rabs (Z (kposition x)) -> notFlat x = true).
  { intros x L. unfold notFlat. destruct (nltb _ _) eqn:E; [reflexivity|]. apply Rltb_false in E. exfalso. unfold Z in L. rn. lra. }
  assert (IN : forall x, In x (lthumb yr SideBoth) -> In x (lall yr SideBoth ++ lall yl SideBoth)) by (intros x I; apply in_app_iff; left; apply lall_in; auto).
  apply existsb_exists. destruct W as [W|W]; [exists b|exists b']; (split; [apply IN; eapply nth_error_In; eassumption|apply NF, W]).
Qed.
End Foot.
