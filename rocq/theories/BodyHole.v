(** The half holes of encoder and cable end on the split plane. *)
From Coq Require Import Reals Lra.
From Coq Require Import ZArith List Bool Lia Arith.
From Verif Require Import Num GeoModel EdgeModel EdgeSpec EdgeMesh ArcModel MeshModel MeshSpec MeshProof LayoutModel LayoutProof BracketModel BumperModel
  PartSpec ChainProof PartProof PalmProof PlanMove GeoSpec GeoMat GeoRigid GeoPlane GeoFig ArcSpec ArcProof P_Arc BodyChain BodyKeys BodyParts BodyFlat BodyReal.
Import ListNotations.
Open Scope R_scope.

Definition on_axis (l : list pt) : Prop := l <> [] /\ Y (hd origin l) = 0 /\ Y (last l origin) = 0.
Lemma arc_axis (h amax r : R) span l : 0 < h -> 0 < amax -> 0 < span <= PI -> arc2D (mkQuality h amax) r 0 span origin = Ok l ->
  l <> [] /\ Y (hd origin l) = 0 /\ Y (last l origin) = (if Rlt_dec r eps then 0 else r * sin span).
Proof.
  intros Hh Ha Hs H. pose proof PI_RGT_0. pose proof eps_pos.
  destruct (Rlt_dec r eps) as [L|L].
  - rewrite (proj1 (C46_degenerate h amax r 0 span origin) L) in H. okinv H. split; [discriminate|]. split; reflexivity.
  - apply Rnot_lt_le in L. destruct (Rle_lt_dec h (2 * r)) as [B|B].
    2: { rewrite (proj1 (proj2 (C46_degenerate h amax r 0 span origin)) L B) in H. discriminate. }
    destruct (C46_ends h amax r 0 span origin L ltac:(lra) Ha ltac:(lra)) as (pts & E & NE & HD & LA & _).
    rewrite E in H. okinv H.
    assert (TL : turn_limited span = span). { unfold turn_limited. rewrite Rmin_left, Rmax_right by lra. reflexivity. }
    rewrite TL in *. split; [exact NE|]. rewrite HD, LA.
    + change (0 + r * sin 0 = 0 /\ 0 + r * sin (0 + span) = r * sin span). rewrite sin_0, (Rplus_0_l span). split; ring.
    + unfold full_turn. rewrite (Rabs_right span) by lra. rewrite Rabs_left by lra. unfold eps in *. intros K. pose proof PI2_1. lra.
Qed.

Lemma half_axis (h amax : R) taper r l : 0 < h -> 0 < amax -> uprightHalfHole2D (mkQuality h amax) taper r = Ok l -> on_axis l.
Proof.
  intros Hh Ha H. pose proof PI_RGT_0.
  assert (Plain : arc2D (@mkQuality Rnum h amax) r 0 PI origin = Ok l -> on_axis l).
  { intros K. destruct (arc_axis h amax r PI l Hh Ha ltac:(lra) K) as (A & B & C). split; [exact A|]. split; [exact B|].
    refine (eq_trans C _). destruct (Rlt_dec r eps); [reflexivity|]. rewrite sin_PI. ring. }
  unfold uprightHalfHole2D in H. destruct taper as [a|]; [|exact (Plain H)]. destruct (nltb _ a); [|exact (Plain H)].
  apply bind_ok in H; destruct H as (e & He & H). apply bind_ok in H; destruct H as (arc & Harc & H).
  apply bind_ok in H; destruct H as (hf & _ & H). apply bind_ok in H; destruct H as (x & _ & H). okinv H.
  assert (E : e = PI / 4). { apply pdiv_ok in He. destruct He as (_ & ->). unfold tau. rn. field. }
  destruct (arc_axis h amax r e arc Hh Ha ltac:(lra) Harc) as (A & B & _).
  destruct arc as [|p arc]; [contradiction|]. cbn [hd] in B. split; [discriminate|]. split; [exact B|].
  cbn [app emirX map rev]. rewrite app_assoc. change (Y (last ((p :: (arc ++ [V x r (nZ 0)]) ++ rev (map vmirX (arc ++ [V x r (nZ 0)]))) ++ [vmirX p]) origin) = 0).
  rewrite last_last. destruct p as [p1 p2 p3]. exact B.
Qed.
Lemma align_keeps_flat (n : pt) al : fromAlignment (V 0 0 1) n = Ok al -> flat n -> forall p pos, flat p -> flat pos -> flat (transformed p (mtranslated al pos)).
Proof.
  intros H Fn p pos Fp Fq. destruct (fromAlignment_cases _ _ _ H) as (a & b & Ha & Hb & C).
  assert (Fb : flat b) by (apply (norm_flat n); assumption).
  assert (Fa : X a = 0 /\ Y a = 0).
  { apply vnorm_ok in Ha. destruct Ha as (_ & ->). split; [change (/ len (V 0 0 1) * 0 = 0)|change (/ len (V 0 0 1) * 0 = 0)]; apply Rmult_0_r. }
  destruct Fa as (Fa & Ga). destruct p as [p1 p2 p3], pos as [q1 q2 q3], a as [a1 a2 a3], b as [b1 b2 b3]. unfold flat, X, Y in *. cbn [vx vy] in *. subst.
  destruct C as [(_ & ->)|[(_ & _ & ->)|(_ & _ & _ & ->)]]; [| |set (k := 1 / _); clearbody k]; alg; ring.
Qed.
Lemma first_flat (g : pt -> pt) l p : on_axis l -> (forall v, Y v = 0 -> flat (g v)) -> pyidx (map g l) 0 = Ok p -> flat p.
Proof.
  intros (NE & H & _) G E. rewrite pyidx_first in E. destruct l as [|a l]; [contradiction|]. cbn [map] in E. okinv E. apply G, H.
Qed.
Lemma last_flat (g : pt -> pt) l p : on_axis l -> (forall v, Y v = 0 -> flat (g v)) -> pyidx (map g l) (-1) = Ok p -> flat p.
Proof.
  intros (NE & _ & H) G E. rewrite pyidx_last in E. destruct (exists_last NE) as (r & a & ->). rewrite map_app, rev_app_distr in E. cbn [map rev app] in E. okinv E.
  rewrite last_last in H. apply G, H.
Qed.
Lemma encoder_flat h amax taper c po pi e : 0 < h -> 0 < amax -> newEncoder (mkQuality h amax) taper c po pi = Ok e -> flat (pnormal po) -> flat (ppos po) ->
  flats (enSplitF e) /\ flats (enSplitB e).
Proof.
  intros Hh Ha H Fn Fp. unfold newEncoder in H. cbv zeta in H.
  apply bind_ok in H; destruct H as (al & Hal & H). apply bind_ok in H; destruct H as (hole & Hhole & H). apply bind_ok in H; destruct H as (k & _ & H).
  apply bind_ok in H; destruct H as (box & Hbox & H). apply bind_ok in H; destruct H as (sf & Hsf & H). apply bind_ok in H; destruct H as (sb & Hsb & H).
  okinv H. cbn [enSplitF enSplitB].
  pose proof (half_axis _ _ _ _ _ Hh Ha Hhole) as OA. pose proof (align_keeps_flat _ _ Hal Fn) as AF.
  set (align := mtranslated al (ppos po)) in *.
  assert (AF' : forall p : pt, flat p -> flat (transformed p align)) by (intros p Fq; apply AF; assumption). clearbody align.
  assert (T1 : forall v : pt, Y v = 0 -> flat (transformed (vadd (vscale (vsub (V (vy v) (vx v) (nZ 0)) vzero) (nZ 1 + k)%num) vzero) align)).
  { intros v Hv. apply AF'. destruct v as [v1 v2 v3]. unfold Y in Hv. cbn [vy] in Hv. subst v2. unfold flat, X. alg. ring. }
  assert (T2 : forall z (v : pt), Y v = 0 -> flat (transformed (vadd (V (vy v) (vx v) (nZ 0)) (V (nZ 0) (nZ 0) z)) align)).
  { intros z v Hv. apply AF'. destruct v as [v1 v2 v3]. unfold Y in Hv. cbn [vy] in Hv. subst v2. unfold flat, X. alg. ring. }
  unfold etransformed, escaled, etranslated in Hsf, Hsb. rewrite !map_map in Hsf, Hsb.
  assert (Box : forall (p v : pt), (l <- newLine p (pnormal po) ;; pintersectLine pi l) = Ok v -> flat p -> flat v).
  { intros p v E F. apply bind_ok in E; destruct E as (l & El & E). apply pintersectLine_sound in E. apply (on_flat_line l); [|apply E]. apply (newLine_flat _ _ _ El); assumption. }
  apply mapM_ok in Hbox. inversion Hbox as [|? g0 ? ? B1 I1]; subst. inversion I1 as [|? g1 ? ? _ I2]; subst. inversion I2 as [|? g2 ? ? _ I3]; subst.
  inversion I3 as [|? g3 ? ? _ I4]; subst. inversion I4 as [|? g4 ? ? _ I5]; subst. inversion I5 as [|? g5 ? ? B5 I6]; subst. inversion I6; subst. clear I1 I2 I3 I4 I5 I6 Hbox.
  assert (G0 : flat g0) by (apply (Box _ _ B1); apply AF'; reflexivity).
  assert (G5 : flat g5) by (apply (Box _ _ B5); apply AF'; reflexivity).
  apply mapM_ok in Hsf, Hsb. cbn [rev app] in Hsf. split.
  - inversion Hsf as [|? ? ? ? A1 F2]; subst. inversion F2 as [|? ? ? ? A2 F3]; subst. inversion F3 as [|? ? ? ? A3 F4]; subst. inversion F4 as [|? ? ? ? A4 F5]; subst.
    inversion F5 as [|? ? ? ? A5 F6]; subst. inversion F6; subst.
    repeat (apply Forall_cons); [exact (last_flat _ _ _ OA T1 A1)|exact (last_flat _ _ _ OA (T2 _) A2)|exact (last_flat _ _ _ OA (T2 _) A3)| | |apply Forall_nil].
    + rewrite pyidx_last in A4. cbn [rev app] in A4. okinv A4. apply AF'. reflexivity.
    + rewrite pyidx_last in A5. cbn [rev app] in A5. okinv A5. exact G5.
  - inversion Hsb as [|? ? ? ? A1 F2]; subst. inversion F2 as [|? ? ? ? A2 F3]; subst. inversion F3 as [|? ? ? ? A3 F4]; subst. inversion F4 as [|? ? ? ? A4 F5]; subst.
    inversion F5 as [|? ? ? ? A5 F6]; subst. inversion F6; subst.
    repeat (apply Forall_cons); [| |exact (first_flat _ _ _ OA (T2 _) A3)|exact (first_flat _ _ _ OA (T2 _) A4)|exact (first_flat _ _ _ OA T1 A5)|apply Forall_nil].
    + rewrite pyidx_first in A1. okinv A1. exact G0.
    + rewrite pyidx_first in A2. okinv A2. apply AF'. reflexivity.
Qed.
