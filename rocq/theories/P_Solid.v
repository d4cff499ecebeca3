(** Properties C48 and C59: the support and the knob are closed, and the support
    keeps its gaps.  Read with EdgeSpec.v (meshes as counts of directed edges) and
    MeshSpec.v (clean strips, complete faces). *)
From Coq Require Import Reals Lra ZArith List Bool Arith Lia.
From Verif Require Import Num Calc GeoModel EdgeModel EdgeSpec GeoSpec GeoMat ArcModel ArcSpec ArcProof FaceModel
  MeshModel MeshSpec MeshProof MeshCheck MeshFace StripReal SupportModel SupportReal KnobModel SolidProof.
Import ListNotations.

(** ** C48 closed solids *)
(* for every arithmetic, every triangulator, all settings and keys: if the strip
   between the two ends has no sliver and the two end faces are triangulated
   completely, the supports form a closed mesh *)
Theorem C48_support_closed : forall (N : Num) fill q c keys (endL endR : list vec) ts,
  supportEdges q c = Ok (endL, endR) -> support q c fill keys = Ok ts ->
  clean_strip endL endR true vzero -> exact_face fill (rev endL) [] -> exact_face fill endR [] ->
  (forall k, In k keys -> keeps_eq (fun p => transformed p k)) ->
  forall eqv, point_eq eqv -> watertight eqv ts.
Proof.
  intros N fill q c keys l r ts E H S1 S2 S3 K eqv Q. apply bounds_of_flux; [|exact Q]. intros f W.
  apply (support_flux c fill keys ts l r q f E H W); [|exact K]. cbn. auto.
Qed.
Print Assumptions C48_support_closed.
(* over the reals, with the program's triangulation: it suffices that neighbouring
   points of the ends are not closer than the width of the support allows, and that
   the triangulation of both ends is complete *)
Theorem C48_support_closed_real : forall lt_inf fuel sched (h amax : R) (c : @support_cfg Rnum) keys (endL endR : list pt) ts,
  let fill := triangulate lt_inf fuel sched in
  (roofThickness c <> baseDepth c)%R -> (roofThickness c <> topDepth c)%R -> (2 * eps <= topDepth c)%R -> (0 < h <= topDepth c)%R -> (0 < amax)%R ->
  supportEdges (@mkQuality Rnum h amax) c = Ok (endL, endR) -> support (@mkQuality Rnum h amax) c fill keys = Ok ts ->
  let width := Rabs (sw_width c - baseGap c - topGap c) in
  neighbours (long_or_point width) (@outline Rnum endL true) -> neighbours (long_or_point width) (@outline Rnum endR true) ->
  @complete_face Rnum fill (rev endL) [] -> @complete_face Rnum fill endR [] ->
  forall eqv, point_eq eqv -> @watertight Rnum eqv ts.
Proof.
  intros lt_inf fuel sched h amax c keys l r ts fill N1 N2 T H A E Hs width L1 L2 F1 F2.
  destruct (edges_form h amax c N1 N2 T H A) as (l' & r' & E' & NL & NR & PL & PR). rewrite E in E'. injection E' as <- <-.
  apply (C48_support_closed Rnum fill _ c keys l r ts E Hs); [|apply complete_exact, F1|apply complete_exact, F2|intros; apply keeps_eq_R].
  assert (W : (xR c - xL c)%R = (sw_width c - baseGap c - topGap c)%R) by (unfold xR, xL; rn; lra).
  apply (strip_between_planes l r true (P 1 0 0) (xL c) (xR c)); [exact NL|exact NR| | | | |].
  - unfold inner, P, X, Y, GeoSpec.Z. cbn. lra.
  - intros p Hp. destruct (PL p Hp) as (s & t & _ & _ & ->). unfold inner, end_point, P, X, Y, GeoSpec.Z. cbn. lra.
  - intros p Hp. destruct (PR p Hp) as (s & t & _ & _ & ->). unfold inner, end_point, P, X, Y, GeoSpec.Z. cbn. lra.
  - rewrite W. exact L1.
  - rewrite W. exact L2.
Qed.
Print Assumptions C48_support_closed_real.
(* for every arithmetic and triangulator: the knob is closed if its strips have no
   slivers and its three faces are triangulated completely *)
Theorem C48_knob_closed : forall (N : Num) fill q c m ts, knob q c = Ok m ->
  sound_mesh (exact_face fill) m -> eval fill m = Ok ts -> forall eqv, point_eq eqv -> watertight eqv ts.
Proof. intros N fill q c m ts H S E. apply (eval_watertight fill m ts S E). intros f W. exact (knob_bd q c m f H W). Qed.
Print Assumptions C48_knob_closed.
Theorem C48_knob_closed_real : forall lt_inf fuel sched q c m ts, knob q c = Ok m ->
  @sound_mesh Rnum (complete_face (triangulate lt_inf fuel sched)) m -> eval (triangulate lt_inf fuel sched) m = Ok ts ->
  forall eqv, point_eq eqv -> watertight eqv ts.
Proof.
  intros lt_inf fuel sched q c m ts H S E. apply (C48_knob_closed Rnum (triangulate lt_inf fuel sched) q c m ts H); [|exact E].
  apply (sound_mono _ _ _ (complete_exact lt_inf fuel sched) S).
Qed.
Print Assumptions C48_knob_closed_real.

(* the hypotheses are met by the default support and by a knob with the default
   dimensions but three grooves and coarser arcs (fixed point arithmetic) *)
Open Scope Z_scope.
Definition dec (p q : BinNums.Z) : BinNums.Z := p * fone / q.
Definition deg (p : BinNums.Z) : BinNums.Z := p * fpi / 180.
Definition cfill := @triangulate Calc (fun _ => true) 5000 (fun n => n).
Definition support_default : @support_cfg Calc := @mkSupportCfg Calc (dec 141 10) (dec 139 10) (dec 4 1) (dec 52 10) (dec 26 10)
  (dec 5 10) (dec 2 10) (dec 2 10) (dec 1 1) (Some 0) (Some (dec 64 100)) (Some (dec 83 100)) (deg 30).
Definition knob_coarse : @knob_cfg Calc := @mkKnobCfg Calc (dec 199 10) (dec 18 10) (dec 12 10) (dec 78 10) (dec 26 10) (dec 42 10)
  3 (dec 7 1) (dec 1 1) (dec 1 1) (dec 435 100) (dec 62 10) (dec 87 100).
Definition sound_counts (r : res (@mesh Calc)) : bool * nat :=
  match r with
  | Ok m => (sound_meshb cfill m, match eval cfill m with Ok ts => length ts | Err _ => 0%nat end)
  | Err _ => (false, 0%nat)
  end.
Lemma Calc_refl (p : @vec Calc) : veqb p p = true.
Proof. unfold veqb. destruct p. cbn. rewrite !Z.eqb_refl. reflexivity. Qed.
Lemma Calc_eq (p q : @vec Calc) : veqb p q = true -> p = q.
Proof.
  unfold veqb. destruct p as [a b c], q as [a' b' c']. cbn. intros H. apply andb_prop in H. destruct H as (H & H3).
  apply andb_prop in H. destruct H as (H1 & H2). apply Z.eqb_eq in H1, H2, H3. subst. reflexivity.
Qed.
Lemma sound_counts_sound r n : sound_counts r = (true, S n) -> exists m ts, r = Ok m /\ sound_mesh (exact_face cfill) m /\ eval cfill m = Ok ts /\ length ts = S n.
Proof.
  unfold sound_counts. destruct r as [m|e]; [|discriminate]. destruct (eval cfill m) as [ts|e] eqn:E; [|discriminate].
  intros H. exists m, ts. split; [reflexivity|]. injection H as H1 H2. split; [|split; [exact E|exact H2]].
  apply sound_meshb_sound; [exact Calc_refl|exact Calc_eq|exact H1].
Qed.
Example C48_support_nonvacuous :
  sound_counts (rmap (fun e => supportMesh (fst e) (snd e)) (supportEdges (@mkQuality Calc (dec 1 10) (deg 30)) support_default)) = (true, 60%nat).
Proof. vm_cast_no_check (eq_refl (true, 60%nat)). Qed.
Example C48_knob_nonvacuous : exists m ts, knob (@mkQuality Calc (dec 5 10) (deg 60)) knob_coarse = Ok m /\
  sound_mesh (exact_face cfill) m /\ eval cfill m = Ok ts /\ length ts = 266%nat.
Proof. apply sound_counts_sound. vm_cast_no_check (eq_refl (true, 266%nat)). Qed.

(** ** C59 the support fits into the key hole *)
Open Scope R_scope.
Theorem C59_support_fits : forall (h amax : R) (c : @support_cfg Rnum),
  2 * eps <= topDepth c -> 0 < h <= topDepth c -> 0 < amax ->
  0 <= baseDepth c <= baseWidth c -> baseDepth c < roofThickness c -> topDepth c < roofThickness c ->
  baseWidth c <= sw_depth c - 2 * sideGap c -> topDepth c <= sw_depth c - 2 * sideGap c ->
  (forall k, relBasePosition c = Some k -> 0 <= k <= 1) ->
  (forall k, relBaseInset c = Some k -> 0 <= k <= 1) -> (forall k, relTopInset c = Some k -> 0 <= k <= 1) ->
  0 <= sideGap c -> sideGap c <= roofThickness c - baseDepth c -> sideGap c <= roofThickness c - topDepth c ->
  exists endL endR, supportEdges (@mkQuality Rnum h amax) c = Ok (endL, endR) /\
    (forall p, In p endL -> X p = - sw_width c / 2 + baseGap c) /\
    (forall p, In p endR -> X p = sw_width c / 2 - topGap c) /\
    (forall p, In p (endL ++ endR) -> Rabs (Y p) <= sw_depth c / 2 - sideGap c /\ - roofThickness c <= GeoSpec.Z p <= 0) /\
    (relBaseInset c = None -> forall p, In p endL -> - roofThickness c + sideGap c <= GeoSpec.Z p) /\
    (relTopInset c = None -> forall p, In p endR -> - roofThickness c + sideGap c <= GeoSpec.Z p).
Proof.
  intros h amax c T Hh Ha B1 B2 T2 W1 W2 R1 R2 R3 G0 G1 G2.
  destruct (edges_form h amax c ltac:(rn; lra) ltac:(rn; lra) T Hh Ha) as (l & r & E & _ & _ & PL & PR).
  exists l, r. split; [exact E|]. pose proof eps_pos as EP.
  assert (IN : forall d o, 0 <= d -> d < roofThickness c -> sideGap c <= roofThickness c - d -> (forall k, o = Some k -> 0 <= k <= 1) ->
     d / 2 <= inset c d o <= roofThickness c - d / 2 /\ (o = None -> inset c d o <= roofThickness c - d / 2 - sideGap c)).
  { intros d o D0 D1 D2 K. unfold inset, rel. set (hh := roofThickness c - d) in *.
    assert (HH : 0 < hh) by (unfold hh; rn; lra).
    assert (KK : 0 <= match o with Some x => x | None => 1 - sideGap c / hh end <= 1).
    { destruct o as [k|]; [apply K; reflexivity|]. assert (0 <= sideGap c / hh) by (apply Rmult_le_pos; [rn; lra|left; apply Rinv_0_lt_compat; exact HH]).
      assert (sideGap c / hh <= 1); [|rn; lra]. apply (Rmult_le_reg_r hh); [exact HH|]. unfold Rdiv. rewrite Rmult_assoc, Rinv_l by lra. rn. lra. }
    split.
    - set (k := match o with Some x => x | None => _ end) in *. assert (0 <= hh * k <= hh).
      { split; [apply Rmult_le_pos; lra|]. rewrite <- (Rmult_1_r hh) at 2. apply Rmult_le_compat_l; lra. }
      assert (roofThickness c = hh + d) by (unfold hh; rn; lra). rn. lra.
    - intros ->. right. rn. assert (roofThickness c = hh + d) by (unfold hh; rn; lra). rn. rewrite H. field. lra. }
  destruct (IN (baseDepth c) (relBaseInset c) ltac:(rn; lra) B2 G1 R2) as (IB & IBN).
  destruct (IN (topDepth c) (relTopInset c) ltac:(rn; lra) T2 G2 R3) as (IT & ITN).
  assert (BL : forall p, In p l -> X p = - sw_width c / 2 + baseGap c /\ Rabs (Y p - moveY c) <= baseWidth c / 2 /\
    - inset c (baseDepth c) (relBaseInset c) - baseDepth c / 2 <= GeoSpec.Z p <= - inset c (baseDepth c) (relBaseInset c) + baseDepth c / 2).
  { intros p Hp. pose proof (PL p Hp) as O. apply on_end_bounds in O; [|rn; lra|rn; lra]. destruct O as (A1 & A2 & A3).
    split; [rewrite A1; unfold xL; rn; field|]. split; [|rn; lra]. eapply Rle_trans; [exact A2|]. right. rn. field. }
  assert (BR : forall p, In p r -> X p = sw_width c / 2 - topGap c /\ Rabs (Y p) <= (sw_depth c - 2 * sideGap c) / 2 /\
    - inset c (topDepth c) (relTopInset c) - topDepth c / 2 <= GeoSpec.Z p <= - inset c (topDepth c) (relTopInset c) + topDepth c / 2).
  { intros p Hp. pose proof (PR p Hp) as O. apply on_end_bounds in O; [|unfold topW; rn; lra|rn; lra]. destruct O as (A1 & A2 & A3).
    rewrite Rminus_0_r in A2. split; [exact A1|]. split; [|rn; lra]. eapply Rle_trans; [exact A2|]. right. unfold topW. rn. field. }
  assert (MV : Rabs (moveY c) <= (sw_depth c - 2 * sideGap c) / 2 - baseWidth c / 2).
  { unfold moveY, topW. set (w := sw_depth c - 2 * sideGap c - baseWidth c) in *. assert (W0 : 0 <= w) by (unfold w; rn; lra).
    assert (exists k, 0 <= k <= 1 /\ w / 2 - w * match relBasePosition c return R with Some x => x | None => 0 end = w / 2 - w * k) as (k & K & EK).
    { clear - R1. destruct (relBasePosition c) as [x|]; [exists x; split; [apply R1; reflexivity|reflexivity]|exists 0; split; [lra|reflexivity]]. }
    change (Rabs (w / 2 - w * match relBasePosition c return R with Some x => x | None => 0 end) <= (sw_depth c - 2 * sideGap c) / 2 - baseWidth c / 2). rewrite EK.
    assert (WK : 0 <= w * k <= w). { split; [apply Rmult_le_pos; lra|]. rewrite <- (Rmult_1_r w) at 2. apply Rmult_le_compat_l; lra. }
    assert (WE : w = sw_depth c - 2 * sideGap c - baseWidth c) by reflexivity. replace ((sw_depth c - 2 * sideGap c) / 2 - baseWidth c / 2) with (w / 2) by (rewrite WE; field). apply Rabs_le. clear - WK. clearbody w. lra. }
  split; [intros p Hp; apply BL, Hp|]. split; [intros p Hp; apply BR, Hp|]. split; [|split].
  - intros p Hp. apply in_app_or in Hp. destruct Hp as [Hp|Hp].
    + destruct (BL p Hp) as (_ & A2 & A3). split; [|rn; lra].
      pose proof (Rabs_triang (Y p - moveY c) (moveY c)) as TR. replace (Y p - moveY c + moveY c) with (Y p) in TR by ring. rn. lra.
    + destruct (BR p Hp) as (_ & A2 & A3). split; [rn; lra|rn; lra].
  - intros NB p Hp. specialize (IBN NB). destruct (BL p Hp) as (_ & _ & A3). rn. lra.
  - intros NT p Hp. specialize (ITN NT). destruct (BR p Hp) as (_ & _ & A3). rn. lra.
Qed.
Print Assumptions C59_support_fits.
(* the default settings meet the hypotheses *)
Example C59_nonvacuous : exists c : @support_cfg Rnum,
  sw_width c = 141/10 /\ sw_depth c = 139/10 /\ roofThickness c = 4 /\ relBaseInset c = Some (64/100) /\
  2 * eps <= topDepth c /\ 0 < 1/10 <= topDepth c /\ 0 <= baseDepth c <= baseWidth c /\ baseDepth c < roofThickness c /\ topDepth c < roofThickness c /\
  baseWidth c <= sw_depth c - 2 * sideGap c /\ topDepth c <= sw_depth c - 2 * sideGap c /\
  (forall k, relBasePosition c = Some k -> 0 <= k <= 1) /\ (forall k, relBaseInset c = Some k -> 0 <= k <= 1) /\ (forall k, relTopInset c = Some k -> 0 <= k <= 1) /\
  0 <= sideGap c /\ sideGap c <= roofThickness c - baseDepth c /\ sideGap c <= roofThickness c - topDepth c.
Proof.
  exists (@mkSupportCfg Rnum (141/10) (139/10) 4 (52/10) (26/10) (5/10) (2/10) (2/10) 1 (Some 0) (Some (64/100)) (Some (83/100)) (PI/6)).
  unfold eps. cbn. repeat match goal with |- _ /\ _ => split end; try lra; try reflexivity; intros k E; injection E as <-; lra.
Qed.
(* a key gets a support exactly if its hole is not turned too far from the printing
   direction; the support of a key is the common support moved along with the key *)
Theorem C59_support_keys : forall (N : Num) fill q c keys ts, support q c fill keys = Ok ts ->
  exists endL endR base, supportEdges q c = Ok (endL, endR) /\ eval fill (supportMesh endL endR) = Ok base /\
  forall t, In t ts <-> exists k n t0, In k keys /\ transformedNormal (V (nZ 1) (nZ 0) (nZ 0)) k = Ok n /\
    nleb (nabs (vangle2D n)) (minOverhangAngle c) = true /\ In t0 base /\ t = tmap (fun p => transformed p k) t0.
Proof.
  intros N fill q c keys ts H. unfold support in H.
  apply bind_ok in H. destruct H as ((l & r) & E & H). apply bind_ok in H. destruct H as (base & B & H).
  apply bind_ok in H. destruct H as (tss & M & H). injection H as <-. exists l, r, base. split; [exact E|]. split; [exact B|].
  clear E B. intros t. revert tss M. induction keys as [|k keys IH]; intros tss M.
  - injection M as <-. cbn. split; [contradiction|]. intros (k & n & t0 & [] & _).
  - cbn [mapM] in M. apply bind_ok in M. destruct M as (x & Hx & M). apply bind_ok in M. destruct M as (xs & Hxs & M). injection M as <-.
    cbn [concat]. rewrite in_app_iff, (IH xs Hxs). clear IH. unfold supportMake in Hx. apply bind_ok in Hx. destruct Hx as (n & Hn & Hx). split.
    + intros [Ht|(k' & n' & t0 & K & F)].
      * destruct (nleb (nabs (vangle2D n)) (minOverhangAngle c)) eqn:C; injection Hx as <-; [|contradiction].
        apply in_map_iff in Ht. destruct Ht as (t0 & <- & H0). exists k, n, t0. cbn. auto.
      * exists k', n', t0. split; [right; exact K|exact F].
    + intros (k' & n' & t0 & [<-|K] & F & C & H0 & ->).
      * left. rewrite Hn in F. injection F as <-. rewrite C in Hx. injection Hx as <-. apply in_map. exact H0.
      * right. exists k', n', t0. auto.
Qed.
Print Assumptions C59_support_keys.
