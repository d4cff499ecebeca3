(** The palm rest has no boundary. *)
From Coq Require Import ZArith List Bool Lia Arith.
From Verif Require Import Num GeoModel EdgeModel EdgeSpec EdgeMesh ArcModel MeshModel MeshSpec MeshProof LayoutModel LayoutProof BossModel PlanModel BracketModel BumperModel
  PalmModel PartSpec ChainProof PartProof.
Import ListNotations.

Section Palm.
Context {N : Num}.
Open Scope Z_scope.
Implicit Types f : @weight N.
Variable q : quality.
Variable c : palm_cfg.
Variable bumperC : option (@bumper_cfg N).

Lemma pyidx_1 {A} (a b : A) l : pyidx (a :: b :: l) 1 = Ok b.
Proof. reflexivity. Qed.
Lemma pyidx_2nd_last {A} (l : list A) a b : pyidx (l ++ [a; b]) (-2) = Ok a.
Proof.
  unfold pyidx. cbn [Z.ltb Z.compare]. rewrite app_length. cbn [length].
  replace (Z.of_nat (length l + 2) + -2) with (Z.of_nat (length l)) by lia.
  destruct (Z.of_nat (length l) <? 0) eqn:E; [apply Z.ltb_lt in E; lia|]. rewrite Nat2Z.id.
  rewrite nth_error_app2, Nat.sub_diag by lia. reflexivity.
Qed.
Lemma grounded_form f l l' : grounded c l = Ok l' -> exists a x y b, l' = a :: l ++ [b] /\ chain f l x y (walk f l) /\
  pyidx l' 0 = Ok a /\ pyidx l' (-1) = Ok b /\ pyidx l' 1 = Ok x /\ pyidx l' (-2) = Ok y /\ chain f l' a b (walk f l').
Proof.
  intros H. unfold grounded in H. cbv zeta in H. grabs H. apply Ok_inj in H.
  exists (vsub (vxy x) (V (nZ 0) (nZ 0) (pa_floorHeight c))), x, x0, (vsub (vxy x0) (V (nZ 0) (nZ 0) (pa_floorHeight c))).
  set (a := vsub (vxy x) _) in *. set (b := vsub (vxy x0) _) in *. clearbody a b. subst l'.
  pose proof (chain_self f l x x0 Q Q0) as C. split; [reflexivity|]. split; [exact C|].
  destruct C as (NE & H1 & H2 & _).
  assert (P0 : pyidx (a :: l ++ [b]) 0 = Ok a) by (rewrite pyidx_first; reflexivity).
  assert (P1 : pyidx (a :: l ++ [b]) (-1) = Ok b) by (rewrite pyidx_last; cbn [rev]; rewrite rev_app_distr; reflexivity).
  split; [exact P0|]. split; [exact P1|]. split; [destruct l; [contradiction|]; cbn [app]; rewrite pyidx_1; cbn in H1; congruence|].
  split; [|exact (chain_self f _ a b P0 P1)].
  destruct (exists_last NE) as (r & y & ->). rewrite last_last in H2. subst y. rewrite <- app_assoc. cbn [app].
  exact (pyidx_2nd_last (a :: r) x0 b).
Qed.
Lemma inner_list {A} (a b : A) l : removelast (skipn 1 (a :: l ++ [b])) = l.
Proof. cbn [skipn]. rewrite removelast_app by discriminate. cbn [removelast]. apply app_nil_r. Qed.
Lemma clamp_bd f size a b d e m : addClamp size a b d e = Ok m -> is_weight f -> bd f m = loop f [a; b; d; e].
Proof.
  intros H W. unfold addClamp in H. grab H. cbv zeta in H. apply Ok_inj in H. subst m. cbn [bd].
  set (A := vadd _ _). set (D := vadd _ _). assert (E : loop f [A; A; D; D] = 0); [|rewrite E; lia].
  unfold loop, outline. cbn [app firstn walk]. rewrite (weight_diag f A W), (weight_diag f D W), (proj1 W D A). lia.
Qed.
(* the groove, except for its rims on the sides and on the floor *)
Lemma groove_bd g r gv f : newGroove q c g r = Ok gv -> is_weight f ->
  bd f (gvMesh gv) + loops f (gvFaces gv) = walk f (gvLT gv) - walk f (gvRT gv) - walk f (gvLG gv) - walk f (gvRG gv) /\
  exists lt0 lt1 rt0 rt1, chain f (gvLT gv) lt1 lt0 (walk f (gvLT gv)) /\ chain f (gvRT gv) rt1 rt0 (walk f (gvRT gv)) /\
    chain f (gvLG gv) lt1 lt0 (walk f (gvLG gv)) /\ chain f (gvRG gv) rt0 rt1 (walk f (gvRG gv)).
Proof.
  intros H W. unfold newGroove in H. destruct (nleb _ _); [discriminate|]. cbv zeta in H.
  do 14 grab H.
  apply bind_ok in H; destruct H as (lto & Glto & H). apply bind_ok in H; destruct H as (lgo & Glgo & H).
  apply bind_ok in H; destruct H as (rto & Grto & H). apply bind_ok in H; destruct H as (rgo & Grgo & H).
  apply bind_ok in H; destruct H as (lti & Glti & H). apply bind_ok in H; destruct H as (lgi & Glgi & H).
  apply bind_ok in H; destruct H as (rti & Grti & H). apply bind_ok in H; destruct H as (rgi & Grgi & H).
  apply bind_ok in H; destruct H as (cm & Hc & H).
  clear Q Q0 Q1 Q2 Q3 Q4 Q5 Q6 Q7 Q8 Q9 Q10 Q11 Q12.
  destruct (grounded_form f _ _ Glto) as (lto0 & _ & _ & lto1 & _ & _ & Alto0 & Alto1 & _ & _ & Clto).
  destruct (grounded_form f _ _ Glti) as (lti0 & _ & _ & lti1 & _ & _ & Alti0 & Alti1 & _ & _ & Clti).
  destruct (grounded_form f _ _ Grto) as (rto0 & _ & _ & rto1 & _ & _ & Arto0 & Arto1 & _ & _ & Crto).
  destruct (grounded_form f _ _ Grti) as (rti0 & _ & _ & rti1 & _ & _ & Arti0 & Arti1 & _ & _ & Crti).
  destruct (grounded_form f _ _ Glgo) as (lgo0 & lgox & lgoy & lgo1 & Elgo & Klgo & Algo0 & Algo1 & Algox & Algoy & Clgo).
  destruct (grounded_form f _ _ Glgi) as (lgi0 & lgix & lgiy & lgi1 & Elgi & Klgi & Algi0 & Algi1 & Algix & Algiy & Clgi).
  destruct (grounded_form f _ _ Grgo) as (rgo0 & rgox & rgoy & rgo1 & Ergo & Krgo & Argo0 & Argo1 & Argox & Argoy & Crgo).
  destruct (grounded_form f _ _ Grgi) as (rgi0 & rgix & rgiy & rgi1 & Ergi & Krgi & Argi0 & Argi1 & Argix & Argiy & Crgi).
  rewrite Alto0, Alto1, Alti0, Alti1, Arto0, Arto1, Arti0, Arti1, Algo0, Algo1, Algi0, Algi1, Argo0, Argo1, Argi0, Argi1 in H. cbn [bind] in H.
  apply Ok_inj in H. subst gv. cbn [gvMesh gvFaces gvLT gvLG gvRT gvRG].
  assert (B : bd f cm = walk f lgo - walk f lgi + f lgo1 lgi1 - f lgo0 lgi0 + (walk f rgi - walk f rgo + f rgi1 rgo1 - f rgi0 rgo0)).
  { rewrite Algo0, Algo1, Algi0, Algi1, Argo0, Argo1, Argi0, Argi1, Algox, Algoy, Algix, Algiy, Argox, Argoy, Argix, Argiy in Hc. cbn [bind] in Hc.
    destruct (nltb _ _).
    - apply bind_ok in Hc; destruct Hc as (m1 & M1 & Hc). apply bind_ok in Hc; destruct Hc as (m2 & M2 & Hc).
      apply bind_ok in Hc; destruct Hc as (m3 & M3 & Hc). apply bind_ok in Hc; destruct Hc as (m4 & M4 & Hc). apply Ok_inj in Hc. subst cm.
      rewrite bd_meshes. cbn [fold_right]. rewrite (clamp_bd f _ _ _ _ _ _ M1 W), (clamp_bd f _ _ _ _ _ _ M2 W), (clamp_bd f _ _ _ _ _ _ M3 W), (clamp_bd f _ _ _ _ _ _ M4 W).
      rewrite Elgo, Elgi, Ergo, Ergi, !inner_list.
      rewrite (chain_strip f _ _ _ _ _ _ _ _ Klgo Klgi), (chain_strip f _ _ _ _ _ _ _ _ Krgi Krgo).
      assert (T : forall (a b : vec) l x y w, chain f l x y w -> walk f (a :: l ++ [b]) = f a x + w + f y b).
      { intros a b l u v w C. assert (C' : chain f (a :: l ++ [b]) a b (f a u + (w + f v b + 0))) by chain. rewrite (chain_walk _ _ _ _ _ C'). lia. }
      rewrite (T _ _ _ _ _ _ Klgo), (T _ _ _ _ _ _ Klgi), (T _ _ _ _ _ _ Krgo), (T _ _ _ _ _ _ Krgi).
      unfold loop, outline. cbn [app firstn walk]. clear - W. steps f W. lia.
    - apply Ok_inj in Hc. subst cm. rewrite bd_meshes. cbn [fold_right].
      rewrite (chain_strip f _ _ _ _ _ _ _ _ Clgo Clgi), (chain_strip f _ _ _ _ _ _ _ _ Crgi Crgo). lia. }
  split.
  - rewrite bd_meshes. cbn [fold_right]. rewrite B, (chain_strip f _ _ _ _ _ _ _ _ Clti Clto), (chain_strip f _ _ _ _ _ _ _ _ Crto Crti).
    unfold loops. cbn [fold_right]. rewrite (loop_rev f lgo W), !(walk_rev f _ W).
    assert (L1 : loop f (lgi ++ rev lti) = walk f lgi + f lgi1 lti1 - walk f lti + f lti0 lgi0).
    { assert (C' : chain f (lgi ++ rev lti) lgi0 lti0 (walk f lgi + f lgi1 lti1 + - walk f lti)) by chain. rewrite (chain_loop _ _ _ _ _ C'). lia. }
    assert (L2 : loop f (rti ++ rev rgi) = walk f rti + f rti1 rgi1 - walk f rgi + f rgi0 rti0).
    { assert (C' : chain f (rti ++ rev rgi) rti0 rgi0 (walk f rti + f rti1 rgi1 + - walk f rgi)) by chain. rewrite (chain_loop _ _ _ _ _ C'). lia. }
    rewrite L1, L2, (chain_loop f _ _ _ _ Clgo), (chain_loop f _ _ _ _ Crgo). cbn [walk]. clear - W. 
    generalize (walk f lgo) (walk f lgi) (walk f rgo) (walk f rgi) (walk f lto) (walk f lti) (walk f rto) (walk f rti). intros. steps f W. lia.
  - exists lto0, lto1, rto0, rto1. split; [rewrite walk_rev by exact W; chain|]. split; [rewrite walk_rev by exact W; chain|].
    split; split; try discriminate; split; reflexivity || (split; reflexivity).
Qed.

Definition made_boss (b : boss) : Prop := exists bq bc pos dir wd rp, newBoss bq bc pos dir wd rp = Ok b.
Lemma notch_chains r fl no f : newNotch q c r fl = Ok no -> is_weight f -> exists t0 g0,
  pyidx (noFilletRT no) 0 = Ok t0 /\ pyidx (noFilletRG no) 0 = Ok g0 /\
  chain f (noEdgeT no) t0 (vmirX t0) (walk f (noEdgeT no)) /\ chain f (noEdgeG no) g0 (vmirX g0) (walk f (noEdgeG no)).
Proof.
  intros H W. unfold newNotch in H. cbv zeta in H. do 15 grab H.
  apply bind_ok in H; destruct H as (t0 & At & H). apply bind_ok in H; destruct H as (g0 & Ag & H). apply Ok_inj in H. subst no. cbn [noEdgeT noEdgeG noFilletRT noFilletRG].
  exists t0, g0. split; [exact At|]. split; [exact Ag|].
  split; (split; [discriminate|]; split; [reflexivity|]; split; [|reflexivity]); unfold emirX; cbn [map rev]; rewrite app_assoc; apply last_last.
Qed.
Lemma pyidx_map {A B} (g : A -> B) l i x : pyidx l i = Ok x -> pyidx (map g l) i = Ok (g x).
Proof.
  unfold pyidx. rewrite map_length. cbv zeta. set (j := if i <? 0 then _ else i). destruct (j <? 0); [discriminate|]. rewrite nth_error_map. destruct (nth_error _ _); [|discriminate]. cbn. congruence.
Qed.
Lemma bumpers_bd r bs f : palmBumpers q c bumperC r = Ok bs -> is_weight f -> bd f (meshes (map buMesh bs)) + loops f (map buFloor bs) = 0.
Proof.
  intros H W. unfold palmBumpers in H. destruct bumperC as [bc|]; [|apply Ok_inj in H; subst; reflexivity]. cbv zeta in H. do 5 grab H.
  apply mapM_ok in H. rewrite bd_meshes. unfold loops. induction H as [|a b la lb E F IH]; [reflexivity|]. cbn [map fold_right].
  rewrite (bumper_bd _ _ _ _ _ f E W). lia.
Qed.
Lemma loops_map f (g : vec -> vec) ls : loops f (map (map g) ls) = loops (fun a b => f (g a) (g b)) ls.
Proof. unfold loops. induction ls as [|l ls IH]; [reflexivity|]. cbn [map fold_right]. rewrite IH, loop_map. reflexivity. Qed.
Lemma fills_bd f m ls : bd f (meshes (map (fun e => Fill (etransformed e m) []) ls)) = loops (fun a b => f (transformed a m) (transformed b m)) ls.
Proof.
  rewrite bd_meshes. unfold loops. induction ls as [|l ls IH]; [reflexivity|]. cbn [map fold_right]. rewrite IH. cbn [bd].
  unfold etransformed. rewrite loop_map. unfold loops. cbn [fold_right]. lia.
Qed.
Lemma meshes_app f l1 l2 : bd f (meshes (l1 ++ l2)) = bd f (meshes l1) + bd f (meshes l2).
Proof. induction l1 as [|m l IH]; [reflexivity|]. cbn [app meshes bd]. rewrite IH. lia. Qed.

(* no boundary: the pieces of the palm rest *)
Lemma palm_bd pts ht p f : newPalm q c bumperC pts ht = Ok p -> made_boss (bossHitchL ht) -> made_boss (bossHitchR ht) ->
  keeps_eq (fun v => transformed v (placeMatrix (vxy (thumbOLFp pts)) (vxy (pinkyORFp pts)))) ->
  no_short mu (paSideR p) -> no_short mu (paSideL p) -> is_weight f -> bd f (paMesh p) = 0.
Proof.
  intros H (qL & bL & pL & dL & wL & rL & BL) (qR & bR & pR & dR & wR & rR & BR) KE SR SL W.
  unfold newPalm in H. cbv zeta in H.
  apply bind_ok in H; destruct H as (r & _ & H). apply bind_ok in H; destruct H as (fl & _ & H).
  apply bind_ok in H; destruct H as (addL & _ & H). apply bind_ok in H; destruct H as (addR & _ & H).
  apply bind_ok in H; destruct H as (filletLB & _ & H). apply bind_ok in H; destruct H as (filletRB & _ & H).
  apply bind_ok in H; destruct H as (no & Hno & H).
  set (roofL := prL r ++ addL) in *. set (roofR := prR r ++ addR) in *. clearbody roofL roofR.
  apply bind_ok in H; destruct H as (lb1 & Alb1 & H). apply bind_ok in H; destruct H as (l0 & Al0 & H).
  apply bind_ok in H; destruct H as (r0 & Ar0 & H). apply bind_ok in H; destruct H as (rb1 & Arb1 & H).
  apply bind_ok in H; destruct H as (g1 & Ag1 & H). apply bind_ok in H; destruct H as (g2 & Ag2 & H).
  apply bind_ok in H; destruct H as (g3 & Ag3 & H). apply bind_ok in H; destruct H as (g4 & Ag4 & H).
  destruct (_ || _); [discriminate|].
  apply bind_ok in H; destruct H as (gv & Hgv & H). apply bind_ok in H; destruct H as (bs & Hbs & H).
  apply bind_ok in H; destruct H as (rb0 & Arb0 & H). apply bind_ok in H; destruct H as (rl & Arl & H).
  apply bind_ok in H; destruct H as (ll & All & H). apply bind_ok in H; destruct H as (lb0 & Alb0 & H).
  apply Ok_inj in H. subst p. cbn [paMesh paSideR paSideL] in *.
  set (m := placeMatrix _ _) in *. 
  assert (W' : is_weight (fun a b => f (transformed a m) (transformed b m))) by (apply (weight_map f (fun v => transformed v m)); assumption).
  (* everything is weighed before placing *)
  cbn [meshes bd]. rewrite (proj2 (boss_bd _ _ _ _ _ _ _ f BL W)), (proj2 (boss_bd _ _ _ _ _ _ _ f BR W)).
  rewrite meshes_app, fills_bd. cbn [meshes bd]. unfold etransformed. rewrite !loop_map.
  change (map (fun b => map (fun a => transformed a m) (buFloor b)) bs) with (map (fun b => map (fun a => transformed a m) (buFloor b)) bs).
  rewrite <- (map_map buFloor (map (fun a => transformed a m))), loops_map. cbv beta.
  set (F := fun a b => f (transformed a m) (transformed b m)) in *. clearbody F.
  rewrite (collapsed_loop F mu _ W' SR), (loop_rev F _ W'), (collapsed_loop F mu _ W' SL).
  pose proof (bumpers_bd r bs F Hbs W') as HB.
  unfold loops at 3 4 5. cbn [fold_right]. clear KE SR SL Hbs BL BR.
  destruct (notch_chains r (snd fl) no F Hno W') as (t0 & g0 & At0 & Ag0 & CT & CG). clear Hno.
  set (nRG := noFilletRG no) in *. set (nRT := noFilletRT no) in *. clearbody nRG nRT.
  pose proof (chain_self F _ _ _ At0 Ag3) as C_nRT. pose proof (chain_self F _ _ _ Ag0 Ag4) as C_nRG.
  pose proof (chain_self F _ _ _ (pyidx_map vmirX _ _ _ At0) Ag2) as C_nLT. pose proof (chain_self F _ _ _ (pyidx_map vmirX _ _ _ Ag0) Ag1) as C_nLG.
  pose proof (chain_self F _ _ _ Alb0 Alb1) as C_LB. pose proof (chain_self F _ _ _ Arb0 Arb1) as C_RB.
  pose proof (chain_self F _ _ _ Al0 All) as C_L. pose proof (chain_self F _ _ _ Ar0 Arl) as C_R.
  change (emirX nRG) with (map vmirX nRG). change (emirX nRT) with (map vmirX nRT).
  set (nLT := map vmirX nRT) in *. set (nLG := map vmirX nRG) in *. set (eT := noEdgeT no) in *. set (eG := noEdgeG no) in *.
  clearbody nLT nLG eT eG. clear At0 Ag3 Ag0 Ag4 Ag2 Ag1 Alb0 Alb1 Arb0 Arb1 Al0 All Ar0 Arl.
  repeat change (open_strip F ?a ?b) with (bd F (Strip a b false)).
  assert (C1 : chain F [lb1; l0; r0; rb1] lb1 rb1 (F lb1 l0 + (F l0 r0 + (F r0 rb1 + 0)))) by chain.
  assert (C2 : chain F [g1; g2; g3; g4] g1 g4 (F g1 g2 + (F g2 g3 + (F g3 g4 + 0)))) by chain.
  rewrite (chain_strip F _ _ _ _ _ _ _ _ C_L C_R), (chain_strip F _ _ _ _ _ _ _ _ C1 C2), (chain_strip F _ _ _ _ _ _ _ _ CG CT),
    (chain_strip F _ _ _ _ _ _ _ _ C_LB C_nLG), (chain_strip F _ _ _ _ _ _ _ _ C_nLG C_nLT), (chain_strip F _ _ _ _ _ _ _ _ C_nLT C_nRT),
    (chain_strip F _ _ _ _ _ _ _ _ C_nRT C_nRG), (chain_strip F _ _ _ _ _ _ _ _ C_nRG C_RB).
  rewrite (chain_loop F _ _ _ _ CT).
  destruct (pa_groove c) as [gc|].
  - destruct (groove_bd gc r gv F Hgv W') as (B & lt0 & lt1 & rt0 & rt1 & K1 & K2 & K3 & K4).
    assert (L1 : loop F (rev eG ++ [rb0] ++ gvRG gv ++ [rl; ll] ++ gvLG gv ++ [lb0]) =
      - walk F eG + F g0 rb0 + F rb0 rt0 + walk F (gvRG gv) + F rt1 rl + F rl ll + F ll lt1 + walk F (gvLG gv) + F lt0 lb0 + F lb0 (vmirX g0)).
    { eassert (C' : chain F (rev eG ++ [rb0] ++ gvRG gv ++ [rl; ll] ++ gvLG gv ++ [lb0]) _ _ _) by chain. rewrite (chain_loop _ _ _ _ _ C'). lia. }
    assert (L2 : loop F (filletRB ++ roofR ++ gvRT gv) = walk F filletRB + F rb1 r0 + walk F roofR + F rl rt1 + walk F (gvRT gv) + F rt0 rb0).
    { eassert (C' : chain F (filletRB ++ roofR ++ gvRT gv) _ _ _) by chain. rewrite (chain_loop _ _ _ _ _ C'). lia. }
    assert (L3 : loop F (filletLB ++ roofL ++ gvLT gv) = walk F filletLB + F lb1 l0 + walk F roofL + F ll lt1 + walk F (gvLT gv) + F lt0 lb0).
    { eassert (C' : chain F (filletLB ++ roofL ++ gvLT gv) _ _ _) by chain. rewrite (chain_loop _ _ _ _ _ C'). lia. }
    rewrite L1, L2, L3. clear - HB B W'. set (gw := bd F (gvMesh gv)) in *. set (gl := loops F (gvFaces gv)) in *. set (bl := loops F (map buFloor bs)) in *.
    fold bl. clearbody gw gl bl. steps F W'. lia.
  - apply Ok_inj in Hgv. subst gv. cbn [gvMesh gvFaces gvLT gvLG gvRT gvRG]. rewrite !app_nil_r, !app_nil_l.
    assert (L1 : loop F (rev eG ++ [rb0] ++ [rl; ll] ++ [lb0]) =
      - walk F eG + F g0 rb0 + F rb0 rl + F rl ll + F ll lb0 + F lb0 (vmirX g0)).
    { eassert (C' : chain F (rev eG ++ [rb0] ++ [rl; ll] ++ [lb0]) _ _ _) by chain. rewrite (chain_loop _ _ _ _ _ C'). lia. }
    assert (L2 : loop F (filletRB ++ roofR) = walk F filletRB + F rb1 r0 + walk F roofR + F rl rb0).
    { eassert (C' : chain F (filletRB ++ roofR) _ _ _) by chain. rewrite (chain_loop _ _ _ _ _ C'). lia. }
    assert (L3 : loop F (filletLB ++ roofL) = walk F filletLB + F lb1 l0 + walk F roofL + F ll lb0).
    { eassert (C' : chain F (filletLB ++ roofL) _ _ _) by chain. rewrite (chain_loop _ _ _ _ _ C'). lia. }
    rewrite L1, L2, L3. clear - HB W'. cbn [bd]. unfold loops at 1. cbn [fold_right]. set (bl := loops F (map buFloor bs)) in *. fold bl. clearbody bl. steps F W'. lia.
Qed.
Lemma palm_keeps pts ht p fill : newPalm q c bumperC pts ht = Ok p -> sound_mesh (exact_face fill) (paMesh p) ->
  keeps_eq (fun v => transformed v (placeMatrix (vxy (thumbOLFp pts)) (vxy (pinkyORFp pts)))).
Proof.
  intros H S. unfold newPalm in H. cbv zeta in H. do 15 grab H. destruct (_ || _); [discriminate|]. do 6 grab H. apply Ok_inj in H. subst p.
  cbn [paMesh meshes sound_mesh] in S. apply S.
Qed.
End Palm.

Lemma hitch_bosses {N : Num} plc h pts ht : planHitch plc h pts = Ok ht -> made_boss (bossHitchL ht) /\ made_boss (bossHitchR ht).
Proof.
  intros H. unfold planHitch in H. cbv zeta in H. grabs H. apply Ok_inj in H. subst ht. cbn [bossHitchL bossHitchR]. unfold made_boss.
  split; repeat eexists; eassumption.
Qed.
