(** The keys of a new layout, and the planner's first stage: tenting, the walls next to
    the fingers and the thumb cluster. *)
From Coq Require Import Reals Lra Psatz List Bool ZArith Lia.
From Verif Require Import Num GeoModel GeoSpec GeoMat GeoRigid GeoPlane GeoIso EdgeModel ArcModel
  KeyModel LayoutModel LayoutSpec LayoutProof BossModel PlanModel HullSpec PlanSpec WallProof PlanMove.
Import ListNotations.
Open Scope R_scope.

(** ** new keys *)
Definition level (k : @key Rnum) : Prop := forall q, Z (transformed q (kmatrix k)) = Z q.
Definition fresh (k : @key Rnum) : Prop := bounded k /\ level k.

Lemma factory_lengths kc fac : @keyFactory Rnum kc = Ok fac -> length (fBoundsI fac) = 8%nat /\ length (fBoundsO fac) = 4%nat.
Proof.
  unfold keyFactory. intros H. apply bind_ok in H. destruct H as (be & _ & H). cbv zeta in H.
  destruct (isSideways kc); apply Ok_inj in H; rewrite <- H; cbn [fBoundsI fBoundsO]; unfold etransformed; rewrite ?map_length; split; reflexivity.
Qed.
Section Fresh.
Variable kc : @key_cfg Rnum.
Variable lc : @layout_cfg Rnum.
Variable fac : @factory Rnum.
Hypothesis F : keyFactory kc = Ok fac.
Lemma bounds_len k : Built (kmatrix k) -> kfactory k = fac -> length (kCapBounds k) = 4%nat -> bounded k.
Proof.
  intros B E1 E2. destruct (factory_lengths kc fac F) as (L1 & L2). split; [exact B|]. unfold boundsI, boundsO, etransformed. rewrite !map_length, app_length, E1, L1, L2. lia.
Qed.
Lemma fresh_placed u (v : pt) : Z v = 0 -> fresh (ktranslate (newKey kc fac u) v).
Proof.
  intros Hv. split.
  - apply bounds_len; [apply B_tra, B_id|reflexivity|reflexivity].
  - intros q. unfold ktranslate, newKey. cbn [kmatrix]. rewrite moved_id. unfold plus, P, Z in *. cbn [vz]. rn. lra.
Qed.
Lemma fresh_thumb (u a : R) (v : pt) : Z v = 0 -> fresh (ktranslate (ktransform (newKey kc fac u) (mrotZ mid (radians a) None)) v).
Proof.
  intros Hv. split.
  - apply bounds_len; [apply B_tra, B_mul; [apply B_id|apply B_rotZ, B_id]|reflexivity|reflexivity].
  - intros q. rewrite (thumb_key_map kc fac u a v q). unfold plus, P, Z in *. cbn [vz]. rn. lra.
Qed.
Lemma fingerKey_fresh back row col s k : fingerKey kc fac back row col s = Some k -> fresh k.
Proof.
  unfold fingerKey. destruct s as [y|[|x [|y r]]]; intros H; try discriminate; injection H as <-; apply fresh_placed; reflexivity.
Qed.
Lemma fingerGroup_fresh back row g : forall col k, In (Some k) (fingerGroup kc fac back row col g) -> fresh k.
Proof.
  induction g as [|s g IH]; intros col k H; [destruct H|]. cbn [fingerGroup] in H. destruct H as [H|H]; [eapply fingerKey_fresh; eauto|eapply IH; eauto].
Qed.
Lemma fingerRow_fresh back row gs : forall col grp k, In grp (fingerRow kc fac back row col gs) -> In (Some k) grp -> fresh k.
Proof.
  induction gs as [|g gs IH]; intros col grp k H Hk; [destruct H|]. cbn [fingerRow] in H. destruct H as [<-|H]; [eapply fingerGroup_fresh; eauto|eapply IH; eauto].
Qed.
Lemma initFingers_fresh back half g k : half = initFingers kc lc fac back -> In k (flat_map (fun row => present (nth g row [])) half) -> fresh k.
Proof.
  intros -> H. apply in_flat_map in H. destruct H as (row & Hr & H). unfold initFingers in Hr. apply in_map_iff in Hr. destruct Hr as ((i, r) & <- & _).
  unfold present in H. apply in_flat_map in H. destruct H as ([k'|] & Hk & H); [|destruct H]. destruct H as [<-|[]].
  destruct (nth_in_or_default g (fingerRow kc fac back (fst (i, r)) 0 (skipn 2 (dirList back (snd (i, r))))) []) as [I|D]; [|rewrite D in Hk; destruct Hk].
  eapply fingerRow_fresh; eauto.
Qed.
Lemma lgroup_fresh (y : @layout Rnum) g s k : fingersL y = initFingers kc lc fac true -> fingersR y = initFingers kc lc fac false -> In k (lgroup y g s) -> fresh k.
Proof.
  intros EL ER H. apply group_side in H. rewrite lgroup_both, in_app_iff in H. unfold lgroup in H. cbn [halves flat_map] in H. rewrite !app_nil_r in H.
  destruct H as [H|H]; [exact (initFingers_fresh false _ g k ER H)|exact (initFingers_fresh true _ g k EL H)].
Qed.
Lemma thumbLoop_fresh ua : forall (pivot : pt) target, Z pivot = 0 -> (forall k, In k target -> fresh k) -> forall k, In k (thumbLoop kc fac ua pivot target) -> fresh k.
Proof.
  induction ua as [|[u a] r IH]; intros pivot target Zp Ht k H; [apply Ht, H|]. cbn [thumbLoop] in H.
  set (k0 := ktransform (newKey kc fac u) (mrotZ mid (radians a) None)) in *.
  assert (Zv : Z (vsub pivot (capPivotR k0)) = 0).
  { assert (Q : Z (capPivotR k0) = 0).
    { pose proof (thumb_key_map kc fac u a origin (kPivotR k0)) as M. cbn zeta in M. fold k0 in M. unfold ktranslate in M. cbn [kmatrix] in M.
      rewrite app_tra in M by (unfold k0, ktransform, newKey; cbn [kmatrix]; apply affine_mul; [apply affine_mid|apply affine_rot; aff]). rewrite !plus_0_r in M.
      unfold capPivotR. rewrite M. unfold k0. cbn [kPivotR ktransform newKey]. reflexivity. }
    unfold vsub, Z in *. cbn [vz]. rn. lra. }
  assert (FK : fresh (ktranslate k0 (vsub pivot (capPivotR k0)))) by (apply fresh_thumb, Zv).
  refine (IH _ _ _ _ k H).
  - destruct FK as (_ & LV). unfold capPivotL. rewrite LV. reflexivity.
  - intros k1 [<-|H1]; [exact FK|apply Ht, H1].
Qed.
Lemma initThumb_fresh y s i back ks k : fingersL y = initFingers kc lc fac true -> fingersR y = initFingers kc lc fac false ->
  initThumb kc lc fac y s i back = Ok ks -> In k ks -> fresh k.
Proof.
  intros EL ER H Hk. destruct (initThumb_form kc lc fac y s i back ks H) as (u & a & o & col & st & ox & oy & _ & _ & _ & HC & HS & _ & _ & ->).
  refine (thumbLoop_fresh _ _ [] _ (fun k1 (I : In k1 []) => match I with end) k Hk).
  assert (FS : fresh st).
  { eapply lgroup_fresh; [exact EL|exact ER|]. eapply (lcol_in y 0 (-1) s col); [exact HC|]. apply in_rev. destruct (rev col); [discriminate|]. injection HS as <-. left; reflexivity. }
  assert (Q : Z (capPivotR st) = 0).
  { assert (E : exists u v, Z v = 0 /\ st = ktranslate (newKey kc fac u) v \/ Z (kPivotR st) = 0).
    { exists 0, origin. right.
      assert (In st (lgroup y 0 s)).
      { eapply (lcol_in y 0 (-1) s col); [exact HC|]. apply in_rev. destruct (rev col); [discriminate|]. injection HS as <-. left; reflexivity. }
      apply group_side in H0. rewrite lgroup_both, in_app_iff in H0. unfold lgroup in H0. cbn [halves flat_map] in H0. rewrite !app_nil_r, EL, ER in H0.
      assert (K : forall b, In st (flat_map (fun row => present (nth 0 row [])) (initFingers kc lc fac b)) -> Z (kPivotR st) = 0).
      { intros b Hb. apply in_flat_map in Hb. destruct Hb as (row & Hr & Hb). unfold initFingers in Hr. apply in_map_iff in Hr. destruct Hr as ((j, r) & <- & _).
        unfold present in Hb. apply in_flat_map in Hb. destruct Hb as ([k'|] & Hk' & Hb); [|destruct Hb]. destruct Hb as [<-|[]].
        assert (G : forall gs c0 grp, In grp (fingerRow kc fac b j c0 gs) -> In (Some k') grp -> Z (kPivotR k') = 0).
        { induction gs as [|g gs IH]; intros c0 grp Hg Hi; [destruct Hg|]. cbn [fingerRow] in Hg. destruct Hg as [<-|Hg]; [|eapply IH; eauto].
          revert Hi. generalize (dirList b g). intros l. revert c0. induction l as [|s0 l IHl]; intros c0 Hi; [destruct Hi|]. cbn [fingerGroup] in Hi. destruct Hi as [Hi|Hi]; [|eapply IHl; eauto].
          unfold fingerKey in Hi. destruct s0 as [y0|[|x [|y0 r0]]]; try discriminate; injection Hi as <-; reflexivity. }
        cbn [fst snd] in Hk'.
        destruct (nth_in_or_default 0 (fingerRow kc fac b j 0 (skipn 2 (dirList b r))) []) as [I|D]; [|rewrite D in Hk'; destruct Hk'].
        eapply G; eauto. }
      destruct H0 as [H0|H0]; eapply K; eauto. }
    destruct E as (u0 & v & [(Zv & E)|E]).
    - unfold capPivotR. rewrite (proj2 FS). rewrite E. reflexivity.
    - unfold capPivotR. rewrite (proj2 FS). exact E. }
  unfold vsub, Z in *. cbn [vz]. rn. lra.
Qed.
End Fresh.
Lemma newLayout_fresh kc lc y : @newLayout Rnum kc lc = Ok y -> forall k, In k (lall y SideBoth) -> fresh k.
Proof.
  intros H k Hk. destruct (newLayout_form kc lc y H) as (_ & fac & F & EL & ER & TL & TR). cbn zeta in TL, TR.
  unfold lall in Hk. rewrite !in_app_iff in Hk. destruct Hk as [Hk|[Hk|Hk]].
  - eapply lgroup_fresh; [exact F|exact EL|exact ER|exact Hk].
  - eapply lgroup_fresh; [exact F|exact EL|exact ER|exact Hk].
  - cbn [lthumb] in Hk. rewrite in_app_iff in Hk. destruct Hk as [Hk|Hk]; [refine (initThumb_fresh kc lc fac F _ _ _ _ _ k _ _ TR Hk)|refine (initThumb_fresh kc lc fac F _ _ _ _ _ k _ _ TL Hk)]; reflexivity.
Qed.

(** ** simple planes *)
Lemma planeZ_ok (t : R) pl : @planeZ Rnum t = Ok pl -> wf_plane pl /\ forall v, rise pl v = Z v - t.
Proof.
  unfold planeZ, newPlane. assert (U : unit_vec (P 0 0 1)) by (unfold unit_vec, inner, P, X, Y, Z; cbn [vx vy vz]; rn; ring).
  change (@V Rnum (@nZ Rnum 0) (@nZ Rnum 0) (@nZ Rnum 1)) with (P 0 0 1). rewrite vnorm_of_unit by exact U. cbn [bind]. intros H. apply Ok_inj in H. subst pl.
  split; [exact U|]. intros v. unfold rise, inner, minus, P, X, Y, Z. cbn [ppos pnormal vx vy vz]. rn. ring.
Qed.
Lemma planeX_ok (t : R) pl : @planeX Rnum t = Ok pl -> wf_plane pl /\ forall v, rise pl v = X v - t.
Proof.
  unfold planeX, newPlane. assert (U : unit_vec (P 1 0 0)) by (unfold unit_vec, inner, P, X, Y, Z; cbn [vx vy vz]; rn; ring).
  change (@V Rnum (@nZ Rnum 1) (@nZ Rnum 0) (@nZ Rnum 0)) with (P 1 0 0). rewrite vnorm_of_unit by exact U. cbn [bind]. intros H. apply Ok_inj in H. subst pl.
  split; [exact U|]. intros v. unfold rise, inner, minus, P, X, Y, Z. cbn [ppos pnormal vx vy vz]. rn. ring.
Qed.
Lemma planeLine_ok (l : @line Rnum) pl : ground_line l -> planeLine2D l = Ok pl -> wf_plane pl /\ Z (pnormal pl) = 0 /\ forall v, rise pl v = - beyond l v.
Proof.
  intros (U & Zd & _) H. unfold planeLine2D, newPlane in H.
  assert (U' : unit_vec (vortho2D (ldir l))) by (unfold unit_vec, inner, vortho2D, X, Y, Z in *; cbn [vx vy vz] in *; rn; rewrite Zd in U; rewrite <- U; ring).
  rewrite vnorm_of_unit in H by exact U'. cbn [bind] in H. apply Ok_inj in H. subst pl. split; [exact U'|]. split; [reflexivity|].
  intros v. unfold rise, beyond, inner, minus, vortho2D, vxy, P, X, Y, Z. cbn [ppos pnormal vx vy vz]. rn. ring.
Qed.
Lemma thick_line d li lo pi po : ground_line li -> moved_out d li lo -> planeLine2D li = Ok pi -> planeLine2D lo = Ok po -> thick d po pi.
Proof.
  intros G (_ & G' & M) Ei Eo v. destruct (planeLine_ok li pi G Ei) as (_ & _ & R1). destruct (planeLine_ok lo po G' Eo) as (_ & _ & R2). rewrite R1, R2, M. ring.
Qed.
Lemma wallLines_ok keys (t a : R) li lo : wallLines2D keys t a = Ok (li, lo) ->
  ground_line li /\ ldir li = P (cos a) (sin a) 0 /\ moved_out t li lo /\
  (forall p, In p (below keys) -> beyond li p <= 0) /\ (forall p, In p (above keys) -> beyond lo p <= 0).
Proof.
  intros H.
  assert (N1 : below keys <> []).
  { intros E. unfold wallLines2D in H. apply bind_ok in H. destruct H as (bl & _ & H). cbv zeta in H.
    assert (E' : flat_map (fun k => map vxy (boundsI k)) keys = []).
    { destruct (flat_map (fun k => map vxy (boundsI k)) keys) as [|p r] eqn:Q; [reflexivity|]. exfalso.
      assert (I : In p (flat_map (fun k => map vxy (boundsI k)) keys)) by (rewrite Q; left; reflexivity). apply (in_flat_xy boundsI) in I. destruct I as (v & I & _).
      change (flat_map boundsI keys) with (below keys) in I. unfold pt in *. rewrite E in I. exact I. }
    rewrite E' in H. discriminate. }
  assert (N2 : above keys <> []).
  { intros E. unfold wallLines2D in H. apply bind_ok in H. destruct H as (bl & _ & H). cbv zeta in H.
    assert (E' : flat_map (fun k => map vxy (boundsO k)) keys = []).
    { destruct (flat_map (fun k => map vxy (boundsO k)) keys) as [|p r] eqn:Q; [reflexivity|]. exfalso.
      assert (I : In p (flat_map (fun k => map vxy (boundsO k)) keys)) by (rewrite Q; left; reflexivity). apply (in_flat_xy boundsO) in I. destruct I as (v & I & _).
      change (flat_map boundsO keys) with (above keys) in I. unfold pt in *. rewrite E in I. exact I. }
    rewrite E' in H. apply bind_ok in H. destruct H as (ds & _ & H). apply bind_ok in H. destruct H as (mb & _ & H).
    apply bind_ok in H. destruct H as (l1 & _ & H). apply bind_ok in H. destruct H as (l2 & _ & H). discriminate. }
  destruct (wallLines_spec keys t a N1 N2) as (li' & lo' & E & G & D & M & I & O & _). unfold pt in *. rewrite E in H. injection H as <- <-. auto.
Qed.

(** ** the state after each stage *)
Record tented (c : @plan_cfg Rnum) (side : LayoutModel.side) (y : @layout Rnum) (ps : @planesA Rnum) : Prop := mkTented {
  t_bounded : forall k, In k (lall y SideBoth) -> bounded k;
  t_alnum : forall k, In k (alnum y SideBoth) -> sits_on (alnumOT ps) k;
  t_thumb : forall k, In k (lthumb y SideBoth) -> sits_on (thumbOT ps) k;
  t_pinky : forall k, In k (pinky y SideBoth) -> sits_on (pinkyOT ps) k;
  t_roofs : thick (p_roofThickness c) (alnumIT ps) (alnumOT ps) /\ thick (p_roofThickness c) (thumbIT ps) (thumbOT ps) /\ thick (p_roofThickness c) (pinkyIT ps) (pinkyOT ps);
  t_wf : forall sel, In sel selA -> wf_plane (sel ps);
  t_left : alnumOL ps = alnumIL ps /\ inside (alnumIL ps) (flat_map kbounds (alnum y SideBoth));
  t_front : thick (alnumFrontThickness c) (alnumOF ps) (alnumIF ps) /\ inside (alnumIF ps) (below (alnum y SideBoth)) /\ inside (alnumOF ps) (above (alnum y SideBoth));
  t_thumbs_front : 0 < cos (alnumFrontAngle c) -> outside (alnumOF ps) (above (lthumb y SideBoth));
  t_side : thick (wallThickness c) (pinkyOR ps) (pinkyIR ps) /\ inside (pinkyIR ps) (below (pinky y side)) /\ inside (pinkyOR ps) (above (pinky y side));
  t_pivots : pivotOB ps = pivotIB ps /\ pivotOF ps = pivotIF ps }.

Lemma lall_in (y : @layout Rnum) s k : In k (lall y s) <-> In k (alnum y s) \/ In k (pinky y s) \/ In k (lthumb y s).
Proof. unfold lall. rewrite !in_app_iff. reflexivity. Qed.
Lemma kbounds_map g f ks : carries g f -> (forall k, In k ks -> Built (kmatrix k)) -> flat_map kbounds (map f ks) = map g (flat_map kbounds ks).
Proof.
  intros C. induction ks as [|k ks IH]; intros H; [reflexivity|]. cbn [map flat_map]. rewrite (IH (fun k Hk => H k (or_intror Hk))).
  destruct (carries_bounds g f k C (H k (or_introl eq_refl))) as (F1 & F2). unfold kbounds. rewrite F1, F2, !map_app. reflexivity.
Qed.
Lemma tented_moved c side y ps g f F ps' : carries g f -> keeps g F -> tented c side y ps -> mapPlanesA F ps = Ok ps' -> tented c side (mapAll f y) ps'.
Proof.
  intros C K T E. pose proof (mapPlanesA_ok F ps ps' E) as M. destruct T as [B TA TT TP TR TW TL TF TO TS TV].
  assert (Bu : forall k, In k (lall y SideBoth) -> Built (kmatrix k)) by (intros k Hk; apply (B k Hk)).
  assert (BA : forall k, In k (alnum y SideBoth) -> Built (kmatrix k)) by (intros k Hk; apply Bu, lall_in; auto).
  assert (BT : forall k, In k (lthumb y SideBoth) -> Built (kmatrix k)) by (intros k Hk; apply Bu, lall_in; auto).
  assert (BP : forall k, In k (pinky y SideBoth) -> Built (kmatrix k)) by (intros k Hk; apply Bu, lall_in; auto).
  assert (BS : forall k, In k (pinky y side) -> Built (kmatrix k)) by (intros k Hk; apply BP, (group_side y 1 side), Hk).
  assert (S : forall sel, In sel selA -> F (sel ps) = Ok (sel ps') /\ wf_plane (sel ps)) by (intros sel Hs; split; [apply M, Hs|apply TW, Hs]).
  assert (I1 : In alnumIT (@selA Rnum)) by (unfold selA; cbn [In]; auto 20). assert (I2 : In alnumOT (@selA Rnum)) by (unfold selA; cbn [In]; auto 20).
  assert (I3 : In pivotIB (@selA Rnum)) by (unfold selA; cbn [In]; auto 20). assert (I4 : In pivotOB (@selA Rnum)) by (unfold selA; cbn [In]; auto 20).
  assert (I5 : In thumbIT (@selA Rnum)) by (unfold selA; cbn [In]; auto 20). assert (I6 : In thumbOT (@selA Rnum)) by (unfold selA; cbn [In]; auto 20).
  assert (I7 : In pivotIF (@selA Rnum)) by (unfold selA; cbn [In]; auto 20). assert (I8 : In pivotOF (@selA Rnum)) by (unfold selA; cbn [In]; auto 20).
  assert (I9 : In pinkyIT (@selA Rnum)) by (unfold selA; cbn [In]; auto 20). assert (I10 : In pinkyOT (@selA Rnum)) by (unfold selA; cbn [In]; auto 20).
  assert (I11 : In alnumIL (@selA Rnum)) by (unfold selA; cbn [In]; auto 20). assert (I12 : In alnumOL (@selA Rnum)) by (unfold selA; cbn [In]; auto 20).
  assert (I13 : In alnumIF (@selA Rnum)) by (unfold selA; cbn [In]; auto 20). assert (I14 : In alnumOF (@selA Rnum)) by (unfold selA; cbn [In]; auto 20).
  assert (I15 : In pinkyIR (@selA Rnum)) by (unfold selA; cbn [In]; auto 20). assert (I16 : In pinkyOR (@selA Rnum)) by (unfold selA; cbn [In]; auto 20).
  assert (SI : forall sel k, In sel selA -> Built (kmatrix k) -> sits_on (sel ps) k -> sits_on (sel ps') (f k)).
  { intros sel k Hs Bk. destruct (S sel Hs) as (E1 & W1). apply (sits_moved g f F); assumption. }
  assert (TH : forall d a b, In a selA -> In b selA -> thick d (a ps) (b ps) -> thick d (a ps') (b ps')).
  { intros d a b Ha Hb. destruct (S a Ha) as (E1 & W1), (S b Hb) as (E2 & W2). apply (thick_moved g F); assumption. }
  assert (IN : forall sel l, In sel selA -> inside (sel ps) l -> inside (sel ps') (map g l)).
  { intros sel l Hs. destruct (S sel Hs) as (E1 & W1). apply (inside_moved g F); assumption. }
  assert (EQ : forall a b, In a selA -> In b selA -> a ps = b ps -> a ps' = b ps').
  { intros a b Ha Hb Q. destruct (S a Ha) as (E1 & _), (S b Hb) as (E2 & _). rewrite Q, E2 in E1. apply Ok_inj in E1. symmetry. exact E1. }
  constructor.
  - intros k Hk. rewrite lall_all in Hk. apply in_map_iff in Hk. destruct Hk as (k0 & <- & Hk). apply (carries_bounded g); [exact C|apply B, Hk].
  - intros k Hk. rewrite alnum_all in Hk. apply in_map_iff in Hk. destruct Hk as (k0 & <- & Hk). apply SI; auto.
  - intros k Hk. rewrite thumb_all in Hk. apply in_map_iff in Hk. destruct Hk as (k0 & <- & Hk). apply SI; auto.
  - intros k Hk. rewrite pinky_all in Hk. apply in_map_iff in Hk. destruct Hk as (k0 & <- & Hk). apply SI; auto.
  - destruct TR as (R1 & R2 & R3). auto.
  - intros sel Hs. destruct (S sel Hs) as (E1 & W1). apply (keeps_ok g F (sel ps)); assumption.
  - destruct TL as (L1 & L2). split; [apply EQ; auto|]. rewrite alnum_all, (kbounds_map g f _ C BA). apply IN; auto.
  - destruct TF as (F1 & F2 & F3). rewrite alnum_all. destruct (below_map g f _ C BA) as (-> & ->). split; [auto|]. split; apply IN; auto.
  - intros Hc. rewrite thumb_all. destruct (below_map g f _ C BT) as (_ & ->). destruct (S _ I14) as (E1 & W1). apply (outside_moved g F (alnumOF ps)); auto.
  - destruct TS as (F1 & F2 & F3). rewrite pinky_all. destruct (below_map g f _ C BS) as (-> & ->). split; [auto|]. split; apply IN; auto.
  - destruct TV. split; apply EQ; auto.
Qed.

Lemma crease_form c (v : pt) : tentCreaseOffset c = Ok v -> Y v = 0 /\ Z v = 0.
Proof.
  unfold tentCreaseOffset. intros H. cbv zeta in H. apply bind_ok in H. destruct H as (a & _ & H). apply bind_ok in H. destruct H as (b & _ & H).
  apply Ok_inj in H. subst v. split; reflexivity.
Qed.
Lemma lgroup_fingers_thumbs (y : @layout Rnum) f g h m s :
  let y4 := mapFingers 1 h (mapThumb m (mapFingers 0 g (mapThumb f (mapFingers 0 f y)))) in
  alnum y4 s = map (fun k => g (f k)) (alnum y s) /\ pinky y4 s = map h (pinky y s) /\ lthumb y4 s = map (fun k => m (f k)) (lthumb y s).
Proof.
  cbn zeta. unfold alnum, pinky. repeat (rewrite lgroup_map || rewrite lgroup_thumb || rewrite lthumb_thumb || rewrite lthumb_fingers). cbn [Nat.eqb]. rewrite !map_map. auto.
Qed.
Lemma level_move v k : Built (kmatrix k) -> Z v = 0 -> level k -> level (move v k).
Proof. intros B Hv L q. destruct (carries_move v k B) as (_ & T & _). rewrite T. specialize (L q). unfold plus, P, Z in *. cbn [vz]. rn. lra. Qed.
Lemma fresh_move v k : Z v = 0 -> fresh k -> fresh (move v k).
Proof. intros Hv (B & L). split; [apply (carries_bounded (fun p => plus p v)); [apply carries_move|exact B]|]. apply level_move; [apply B|exact Hv|exact L]. Qed.
Lemma level_sits z0 k : @planeZ Rnum 0 = Ok z0 -> level k -> sits_on z0 k.
Proof. intros E L q. destruct (planeZ_ok 0 z0 E) as (_ & R). rewrite R, L. ring. Qed.
Lemma sits_tent z0 pl a (p : pt) k : @planeZ Rnum 0 = Ok z0 -> ptransformed z0 (mrotY mid a (Some p)) = Ok pl -> fresh k ->
  bounded (turnKey (mrotY mid a (Some p)) k) /\ sits_on pl (turnKey (mrotY mid a (Some p)) k).
Proof.
  intros Ez E (B & L). assert (BM : Built (mrotY mid a (Some p))) by apply B_rotY, B_id. split.
  - eapply carries_bounded; [apply carries_turn, BM|exact B].
  - eapply sits_moved; [apply carries_turn, BM|apply keeps_turn, BM|apply (planeZ_ok 0 z0 Ez)|exact E|apply B|apply level_sits; assumption].
Qed.
(* a roof that leans only sideways is not changed by moves to the front *)
Lemma tent_flat z0 pl (a : R) (p v w : pt) : @planeZ Rnum 0 = Ok z0 -> ptransformed z0 (mrotY mid a (Some p)) = Ok pl -> X w = 0 -> Z w = 0 -> rise pl (plus v w) = rise pl v.
Proof.
  intros Ez E Hx Hz. assert (BM : Built (mrotY mid a (Some p))) by apply B_rotY, B_id. destruct (planeZ_ok 0 z0 Ez) as (Wz & Rz).
  destruct (keeps_ok _ _ z0 pl (keeps_turn _ BM) Wz E) as (_ & RR).
  (* v is the image of some u *)
  set (u := rotY_pt (- a) p v).
  assert (Eu : forall d : R, transformed (plus u (P 0 d 0)) (mrotY mid a (Some p)) = plus v (P 0 d 0)).
  { intros d. rewrite app_rotY by apply affine_mid. rewrite app_id. cbn [ctr].
    transitivity (plus (rotY_pt a p (rotY_pt (- a) p v)) (P 0 d 0)).
    - unfold u. generalize (rotY_pt (- a) p v). intros q. unfold rotY_pt, plus.
      assert (E1 : forall x y z s t r : R, x + ((y + 0 - z) * s + (t + 0 - x) * r) = x + ((y - z) * s + (t - x) * r) + 0) by (intros; ring).
      assert (E2 : forall x y z s t r : R, x + ((y + 0 - x) * s - (t + 0 - z) * r) = x + ((y - x) * s - (t - z) * r) + 0) by (intros; ring).
      apply pt_ext; [apply E1|reflexivity|apply E2].
    - rewrite rotY_add. replace (- a + a) with 0 by ring. rewrite rotY_0. reflexivity. }
  assert (Ew : w = P 0 (Y w) 0) by (apply pt_ext; [exact Hx|reflexivity|exact Hz]). rewrite Ew. rewrite <- Eu.
  assert (Ev : v = plus v (P 0 0 0)) by (change (P 0 0 0) with origin; rewrite plus_0_r; reflexivity). rewrite Ev at 1. rewrite <- Eu. rewrite !RR, !Rz.
  unfold plus, P, Z. cbn [vz]. rn. ring.
Qed.
(* thumb keys in front of the alphanumeric wall *)
Lemma thumb_front front (slope : R) pts (m d : R) : ground_line front -> 0 < X (ldir front) -> slope = Y (ldir front) / X (ldir front) ->
  (forall p, In p pts -> Y p - X p * slope <= m) -> m + d <= Y (lpos front) - X (lpos front) * slope -> forall p, In p pts -> 0 <= beyond front (plus p (P 0 d 0)).
Proof.
  intros G Hd Hs Hm Hd' p Hp. specialize (Hm p Hp).
  assert (E : beyond front (plus p (P 0 d 0)) = X (ldir front) * ((Y (lpos front) - X (lpos front) * slope) - (Y p + d - X p * slope))).
  { unfold beyond. rewrite Hs. unfold plus, P, X, Y in *. cbn [vx vy]. rn. field. lra. }
  rewrite E. apply Rmult_le_pos; lra.
Qed.

Theorem planTent_ok c side y ps : planTent c side = Ok (y, ps) -> tented c side y ps.
Proof.
  unfold planTent. intros H.
  apply bind_ok in H. destruct H as (y0 & L0 & H). destruct (nleb (alnumTentAngle c) (thumbTentAngle c)); [discriminate|].
  apply bind_ok in H. destruct H as (co & CO & H). cbv zeta in H.
  apply bind_ok in H. destruct H as (ka & _ & H). apply bind_ok in H. destruct H as (kp & _ & H).
  set (pivot := vhalf (vadd (kposition ka) (kposition kp))) in H.
  set (A := @mrotY Rnum mid (alnumTentAngle c) (Some pivot)) in H. set (T := @mrotY Rnum mid (thumbTentAngle c) (Some pivot)) in H. set (Pm := @mrotY Rnum mid (pinkyTentAngle c) (Some pivot)) in H.
  match type of H with context[ptransformed _ (mrotY mid ?a (Some pivot))] => set (AP := @mrotY Rnum mid a (Some pivot)) in H end.
  match type of H with context[ptransformed _ (mrotY mid ?a (Some pivot))] => set (TP := @mrotY Rnum mid a (Some pivot)) in H end.
  apply bind_ok in H. destruct H as (z & Ez & H). apply bind_ok in H. destruct H as (z0 & Ez0 & H). apply bind_ok in H. destruct H as (xp & Exp & H).
  apply bind_ok in H. destruct H as (aIT & EaIT & H). apply bind_ok in H. destruct H as (aOT & EaOT & H).
  apply bind_ok in H. destruct H as (pIB & EpIB & H). apply bind_ok in H. destruct H as (pOB & EpOB & H).
  apply bind_ok in H. destruct H as (tIT & EtIT & H). apply bind_ok in H. destruct H as (tOT & EtOT & H).
  apply bind_ok in H. destruct H as (pIF & EpIF & H). apply bind_ok in H. destruct H as (pOF & EpOF & H).
  apply bind_ok in H. destruct H as (iIT & EiIT & H). apply bind_ok in H. destruct H as (iOT & EiOT & H).
  set (y4 := mapFingers 1 (turnKey Pm) _) in H.
  apply bind_ok in H. destruct H as (minX & EminX & H). apply bind_ok in H. destruct H as (aIL & EaIL & H). apply bind_ok in H. destruct H as (aOL & EaOL & H).
  apply bind_ok in H. destruct H as ([fI fO] & EF & H). cbn [fst snd] in H.
  apply bind_ok in H. destruct H as (aIF & EaIF & H). apply bind_ok in H. destruct H as (aOF & EaOF & H).
  apply bind_ok in H. destruct H as (slope & Eslope & H). apply bind_ok in H. destruct H as (tint & Etint & H).
  set (delta := V (nZ 0) (nsub _ tint) (nZ 0)) in H.
  set (y5 := if nltb (vy delta) (nZ 0) then mapThumb (move delta) y4 else y4) in H.
  apply bind_ok in H. destruct H as ([rI rO] & ER & H). cbn [fst snd] in H.
  apply bind_ok in H. destruct H as (iIR & EiIR & H). apply bind_ok in H. destruct H as (iOR & EiOR & H). injection H as <- <-.
  assert (BA : Built A) by apply B_rotY, B_id. assert (BT : Built T) by apply B_rotY, B_id. assert (BP : Built Pm) by apply B_rotY, B_id.
  assert (BAP : Built AP) by apply B_rotY, B_id. assert (BTP : Built TP) by apply B_rotY, B_id.
  assert (LS : forall s, alnum y4 s = map (fun k => turnKey A (move co k)) (alnum y0 s) /\ pinky y4 s = map (turnKey Pm) (pinky y0 s) /\ lthumb y4 s = map (fun k => turnKey T (move co k)) (lthumb y0 s))
    by (intros s; apply lgroup_fingers_thumbs).
  clearbody y4.
  assert (FR : forall k, In k (lall y0 SideBoth) -> fresh k) by (apply (newLayout_fresh (keyCfg c) (layoutCfg c)), L0).
  destruct (crease_form c co CO) as (_ & Zco).
  (* the keys, before the thumb cluster is moved *)
  assert (KA : forall k, In k (alnum y4 SideBoth) -> bounded k /\ sits_on aOT k).
  { intros k Hk. rewrite (proj1 (LS SideBoth)) in Hk. apply in_map_iff in Hk. destruct Hk as (k0 & <- & Hk). apply (sits_tent z0); [exact Ez0|exact EaOT|]. apply fresh_move; [exact Zco|]. apply FR, lall_in; auto. }
  assert (KP : forall k, In k (pinky y4 SideBoth) -> bounded k /\ sits_on iOT k).
  { intros k Hk. rewrite (proj1 (proj2 (LS SideBoth))) in Hk. apply in_map_iff in Hk. destruct Hk as (k0 & <- & Hk). apply (sits_tent z0); [exact Ez0|exact EiOT|]. apply FR, lall_in; auto. }
  assert (KT : forall k, In k (lthumb y4 SideBoth) -> bounded k /\ sits_on tOT k).
  { intros k Hk. rewrite (proj2 (proj2 (LS SideBoth))) in Hk. apply in_map_iff in Hk. destruct Hk as (k0 & <- & Hk). apply (sits_tent z0); [exact Ez0|exact EtOT|]. apply fresh_move; [exact Zco|]. apply FR, lall_in; auto. }
  (* moving the thumb cluster *)
  assert (L5 : forall s, alnum y5 s = alnum y4 s /\ pinky y5 s = pinky y4 s).
  { intros s. unfold y5. destruct (nltb (vy delta) (nZ 0)); [|auto]. unfold alnum, pinky. rewrite !lgroup_thumb. auto. }
  assert (KT5 : forall k, In k (lthumb y5 SideBoth) -> bounded k /\ sits_on tOT k).
  { intros k Hk. unfold y5 in Hk. destruct (nltb (vy delta) (nZ 0)); [|apply KT, Hk]. rewrite lthumb_thumb in Hk. apply in_map_iff in Hk. destruct Hk as (k0 & <- & Hk).
    destruct (KT k0 Hk) as (B0 & S0). split; [apply (carries_bounded (fun p => plus p delta)); [apply carries_move|exact B0]|].
    intros q. destruct (carries_move delta k0 (proj1 B0)) as (_ & Q & _). rewrite Q. rewrite (tent_flat z0 tOT _ pivot _ delta Ez0 EtOT) by reflexivity. apply S0. }
  destruct (wallLines_ok _ _ _ _ _ EF) as (GF & DF & MF & IF_ & OF_). destruct (wallLines_ok _ _ _ _ _ ER) as (GR & DR & MR & IR_ & OR_).
  pose proof (proj1 (proj2 MF)) as GFO. pose proof (proj1 (proj2 MR)) as GRO.
  destruct (planeLine_ok fI aIF GF EaIF) as (W1 & _ & R1). destruct (planeLine_ok fO aOF GFO EaOF) as (W2 & _ & R2).
  destruct (planeLine_ok rI iIR GR EiIR) as (W3 & _ & R3). destruct (planeLine_ok rO iOR GRO EiOR) as (W4 & _ & R4).
  destruct (planeX_ok _ _ EaIL) as (W5 & R5). destruct (planeX_ok _ _ Exp) as (W6 & _). destruct (planeZ_ok _ _ Ez) as (W7 & R7). destruct (planeZ_ok _ _ Ez0) as (W8 & R8).
  assert (TH0 : thick (p_roofThickness c) z z0) by (intros v; rewrite R7, R8; rn; lra).
  constructor.
  - intros k Hk. apply lall_in in Hk. rewrite (proj1 (L5 SideBoth)), (proj2 (L5 SideBoth)) in Hk. destruct Hk as [Hk|[Hk|Hk]]; [apply KA, Hk|apply KP, Hk|apply KT5, Hk].
  - intros k Hk. rewrite (proj1 (L5 SideBoth)) in Hk. apply KA, Hk.
  - intros k Hk. apply KT5, Hk.
  - intros k Hk. rewrite (proj2 (L5 SideBoth)) in Hk. apply KP, Hk.
  - cbn [alnumIT alnumOT thumbIT thumbOT pinkyIT pinkyOT].
    split; [exact (thick_moved _ _ _ z z0 _ _ (keeps_turn A BA) W7 W8 EaIT EaOT TH0)|].
    split; [exact (thick_moved _ _ _ z z0 _ _ (keeps_turn T BT) W7 W8 EtIT EtOT TH0)|exact (thick_moved _ _ _ z z0 _ _ (keeps_turn Pm BP) W7 W8 EiIT EiOT TH0)].
  - assert (WT : forall M p q, Built M -> wf_plane p -> ptransformed p M = Ok q -> wf_plane q) by (intros M p q BM Wp Eq; apply (keeps_ok _ _ p q (keeps_turn M BM) Wp Eq)).
    intros sel Hs. unfold selA in Hs. cbn [In] in Hs.
    destruct Hs as [<-|[<-|[<-|[<-|[<-|[<-|[<-|[<-|[<-|[<-|[<-|[<-|[<-|[<-|[<-|[<-|[]]]]]]]]]]]]]]]]]; cbn; try assumption;
      [eapply (WT A); [exact BA|exact W7|exact EaIT]|eapply (WT A); [exact BA|exact W8|exact EaOT]|eapply (WT AP); [exact BAP|exact W6|exact EpIB]|eapply (WT AP); [exact BAP|exact W6|exact EpOB]
      |eapply (WT T); [exact BT|exact W7|exact EtIT]|eapply (WT T); [exact BT|exact W8|exact EtOT]|eapply (WT TP); [exact BTP|exact W6|exact EpIF]|eapply (WT TP); [exact BTP|exact W6|exact EpOF]
      |eapply (WT Pm); [exact BP|exact W7|exact EiIT]|eapply (WT Pm); [exact BP|exact W8|exact EiOT]|apply (planeX_ok _ _ EaOL)].
  - cbn [alnumIL alnumOL]. split; [rewrite EaIL in EaOL; apply Ok_inj in EaOL; symmetry; exact EaOL|].
    intros p Hp. rewrite (proj1 (L5 SideBoth)) in Hp. rewrite R5. destruct (minList_spec _ _ EminX) as (_ & MX). specialize (MX (X p) (in_map vx _ _ Hp)). lra.
  - cbn [alnumOF alnumIF]. rewrite (proj1 (L5 SideBoth)). split; [apply (thick_line _ fI fO); assumption|].
    split; intros p Hp; [rewrite R1; specialize (IF_ p Hp); lra|rewrite R2; specialize (OF_ p Hp); lra].
  - cbn [alnumOF]. intros Hc p Hp. rewrite R2.
    assert (DFO : ldir fO = P (cos (alnumFrontAngle c)) (sin (alnumFrontAngle c)) 0) by (rewrite <- DF; apply MF).
    assert (Hx : 0 < X (ldir fO)) by (rewrite DFO; exact Hc).
    assert (Hs : slope = Y (ldir fO) / X (ldir fO)).
    { apply pdiv_ok in Eslope. destruct Eslope as (_ & ->). reflexivity. }
    destruct (maxList_spec _ _ Etint) as (_ & MX).
    assert (MX' : forall p, In p (above (lthumb y4 SideBoth)) -> Y p - X p * slope <= tint) by (intros q Hq; apply MX, (in_map (fun p => nsub (vy p) (nmul (vx p) slope))), Hq).
    assert (DY : Y delta = Y (lpos fO) - X (lpos fO) * slope - tint) by reflexivity.
    unfold y5 in Hp. destruct (nltb (vy delta) (nZ 0)) eqn:ED.
    + rewrite lthumb_thumb in Hp. assert (BK : forall k, In k (lthumb y4 SideBoth) -> Built (kmatrix k)) by (intros k Hk; apply (KT k Hk)).
      destruct (below_map _ _ _ (carries_move delta) BK) as (_ & EA). rewrite EA in Hp. apply in_map_iff in Hp. destruct Hp as (q & <- & Hq).
      pose proof (thumb_front fO slope _ tint (Y delta) GFO Hx Hs MX') as Q.
      assert (Ed : delta = P 0 (Y delta) 0) by (apply pt_ext; reflexivity). rewrite Ed. specialize (Q ltac:(rewrite DY; lra) q Hq). lra.
    + apply Rltb_false in ED. pose proof (thumb_front fO slope _ tint 0 GFO Hx Hs MX') as Q. change (vy delta) with (Y delta) in ED. rewrite DY in ED.
      specialize (Q ltac:(rn; lra) p Hp). change (P 0 0 0) with origin in Q. rewrite plus_0_r in Q. lra.
  - cbn [pinkyOR pinkyIR]. split; [apply (thick_line _ rI rO); assumption|].
    split; intros p Hp; [rewrite R3; specialize (IR_ p Hp); lra|rewrite R4; specialize (OR_ p Hp); lra].
  - cbn [pivotOB pivotIB pivotOF pivotIF]. split; [rewrite EpIB in EpOB; apply Ok_inj in EpOB; symmetry; exact EpOB|rewrite EpIF in EpOF; apply Ok_inj in EpOF; symmetry; exact EpOF].
Qed.
Theorem planTilt_ok c side y ps y' ps' : tented c side y ps -> planTilt c (y, ps) = Ok (y', ps') -> tented c side y' ps'.
Proof.
  intros T H. unfold planTilt in H. cbn [fst snd] in H. apply bind_ok in H. destruct H as (q & E & H). injection H as <- <-.
  assert (B : Built (tiltSplitMatrix c)) by apply B_rotZ, B_rotX, B_id.
  eapply tented_moved; [apply carries_turn, B|apply keeps_turn, B|exact T|exact E].
Qed.
