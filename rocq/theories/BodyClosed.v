(** The body of the keyboard has no boundary. *)
From Coq Require Import Reals Lra.
From Coq Require Import ZArith List Bool Lia Arith.
From Verif Require Import Num GeoModel EdgeModel EdgeSpec EdgeMesh ArcModel MeshModel MeshSpec MeshProof KeyModel LayoutModel LayoutProof BossModel PlanModel BracketModel BumperModel BodyModel
  PartSpec ChainProof PartProof PalmProof PlanMove GeoSpec GeoMat GeoRigid GeoPlane GeoFig ArcSpec ArcProof P_Arc BodyChain BodyKeys BodyParts BodyFlat BodyReal BodyHole BodyCable BodyRidge BodyMade BodyShell.
Import ListNotations.
Open Scope Z_scope.

Lemma hd_map {A} (g : A -> @vec Rnum) l d : l <> [] -> hd vzero (map g l) = g (hd d l).
Proof. destruct l; [contradiction|reflexivity]. Qed.
Lemma last_map {A} (g : A -> @vec Rnum) l d : l <> [] -> last (map g l) vzero = g (last l d).
Proof. intros H. destruct (exists_last H) as (r & z & ->). rewrite map_app. cbn [map]. rewrite !last_last. reflexivity. Qed.
Lemma walls_bd p g k r bs f : fits p g k -> is_weight f ->
  made_boss (bossAlnumB bs) -> made_boss (bossPinkyB bs) -> made_boss (bossPinkyF bs) -> made_boss (bossThumbF bs) ->
  no_short mu (snd (bodyWalls p g k r bs)) ->
  let og0 := hd vzero (oLFG g) in let oc0 := hd vzero (oLFC k) in let ot0 := hd vzero (coLFT k) in
  let ig1 := last (iLFG g) vzero in let ic1 := last (iLFC k) vzero in let it1 := last (ciLFT k) vzero in
  let ilbG := vxy (alnumILBp p) in let olbG := vxy (alnumOLBp p) in
  bd f (fst (bodyWalls p g k r bs)) =
    - walk f (outerTop k) - walk f (innerTop k) + f (alnumOLBC k) (alnumOLBT k) - f oc0 ot0 + f (rgWall r) (alnumILBC k) - f (rgRoof r) (alnumILBT k) + f ic1 it1 - f (rgWall r) (rgRoof r)
    + f olbG (alnumOLBC k) - f og0 oc0 + f ig1 ic1 - f ilbG (alnumILBC k) - walk f [olbG; vyz olbG; vyz ilbG; ilbG] - f ig1 (vyz ig1) - f (vyz ig1) (vyz og0) - f (vyz og0) og0.
Proof.
  intros FT W B1 B2 B3 B4 NS og0 oc0 ot0 ig1 ic1 it1 ilbG olbG. unfold bodyWalls in *. cbv zeta in *. cbn [fst snd] in *. fold ilbG olbG in NS |- *.
  destruct FT as [F1 F2 F3 F4 F5 F6 FL FN (P1 & P2 & P3 & P4 & P5 & P6) (L1 & L2)]. fold ig1 in L1. fold og0 in L2. fold olbG in P3. fold ilbG in P4.
  cbn [meshes bd]. rewrite (made_thread _ f B1 W), (made_thread _ f B2 W), (made_thread _ f B3 W), (made_thread _ f B4 W).
  rewrite (loop_rev f _ W), (collapsed_loop f mu _ W NS). clear NS. unfold loops. cbn [fold_right].
  unfold exy in *. repeat (rewrite map_app || cbn [map app]).
  pose proof (Forall_inv FL) as E1. apply Forall_inv_tail in FL. pose proof (Forall_inv FL) as E2. apply Forall_inv_tail in FL. pose proof (Forall_inv FL) as E3. apply Forall_inv_tail in FL.
  pose proof (Forall_inv FL) as E4. apply Forall_inv_tail in FL. pose proof (Forall_inv FL) as E5. apply Forall_inv_tail in FL. pose proof (Forall_inv FL) as E6. clear FL. cbv beta in E1, E2, E3, E4, E5, E6.
  rewrite E1, E2, E3, E4, E5, E6, F1, F2, F3, F4, F5, F6, P1, P2, P3, P4, P5, P6, <- L1, <- L2.
  change (vxy (vyz olbG)) with (vyz olbG). change (vxy (vyz ilbG)) with (vyz ilbG). change (vxy olbG) with olbG. change (vxy ilbG) with ilbG.
  change (map vxy (eLBC k)) with (exy (eLBC k)). change (map vxy (eRBC k)) with (exy (eRBC k)). change (map vxy (eRFC k)) with (exy (eRFC k)). change (map vxy (eLFC k)) with (exy (eLFC k)).
  assert (G : forall l : list (@vec Rnum), l <> [] -> exy l <> []) by (intros l; apply map_ne).
  repeat match goal with H : Forall _ (_ :: _) |- _ => let N := fresh "N" in pose proof (Forall_inv H) as N; cbv beta in N; apply (chain_any f) in N; apply Forall_inv_tail in H end. clear FN.
  assert (M1 : may_be_empty (eLBC k)) by exact I. assert (M2 : may_be_empty (eLBT k)) by exact I. assert (M3 : may_be_empty (exy (eLBC k))) by exact I.
  match goal with H : chain f (eRBC k) _ _ _ |- _ => pose proof (chain_any f _ (G _ (proj1 H))) end.
  match goal with H : chain f (eRFC k) _ _ _ |- _ => pose proof (chain_any f _ (G _ (proj1 H))) end.
  match goal with H : chain f (eLFC k) _ _ _ |- _ => pose proof (chain_any f _ (G _ (proj1 H))) end.
  subst og0 oc0 ot0 ig1 ic1 it1. clearbody ilbG olbG.
  all_chains f. unfold innerTop, outerTop.
  match goal with |- context[walk f (alnumILBT k :: eLBT k ++ alnumIRBT k :: eRBT k ++ ?l)] => eassert (D1 : chain f (alnumILBT k :: eLBT k ++ alnumIRBT k :: eRBT k ++ l) _ _ _) by chain2; rewrite (chain_walk _ _ _ _ _ D1); clear D1 end.
  match goal with |- context[walk f (coLFT k ++ ?l)] => eassert (D1 : chain f (coLFT k ++ l) _ _ _) by chain2; rewrite (chain_walk _ _ _ _ _ D1); clear D1 end.
  cbn [walk]. steps f W. lia.
Qed.

Section Closed.
Variables (h amax : R) (taper : option R) (pmod : R -> R -> R) (pasin : R -> res R) (c : @body_cfg Rnum).
Notation q := (@mkQuality Rnum h amax).
Theorem body_bd plc fuel sd pn b es f : (0 < h)%R -> (0 < amax)%R -> (eps <= by_outerCornerRadius c - by_wallThickness c)%R -> (eps <= by_outerCornerRadius c)%R ->
  newPlan plc fuel sd = Ok pn -> newBody q taper pmod pasin c pn = Ok b ->
  key_edges (keyCfg plc) = Ok es -> Forall (no_short_open (nQ 1 1000)) es -> Forall (no_short mu) (byShort b) -> Forall (no_short_open mu) (byOpen b) ->
  (by_bracket c <> None -> exists front ridge step back, byLine b = [front; ridge; step; back] /\ (Y front < Y ridge)%R /\ (Y step <= Y back)%R) ->
  is_weight f -> bd f (byMesh b) = 0.
Proof.
  intros Hh Ha Hi Ho HP HB HE SK SS SO TL W. unfold newBody in HB. cbv zeta in HB. do 3 match type of HB with (if ?b then _ else _) = _ => destruct b; [discriminate|] end.
  apply bind_ok in HB; destruct HB as (g & HG & HB). apply bind_ok in HB; destruct HB as (s & HS & HB). apply bind_ok in HB; destruct HB as (k & HK & HB).
  apply bind_ok in HB; destruct HB as ((((em & encF) & encB) & eo) & HEn & HB). apply bind_ok in HB; destruct HB as (r & HR & HB). apply bind_ok in HB; destruct HB as (o & _ & HB).
  apply Ok_inj in HB. subst b. cbn [byMesh byShort byOpen byLine] in *.
  set (p := planPoints pn) in *. pose proof (Forall_inv SS) as S1. apply Forall_inv_tail in SS. apply Forall_app in SO. destruct SO as (SE & SR).
  pose proof (body_fits _ _ _ p _ _ _ _ _ Hh Ha Hi Ho HG HK) as FT.
  destruct (plan_shares _ _ _ _ HP) as (fac & HF & SH). destruct (plan_bosses _ _ _ _ HP) as (B1 & B2 & B3 & B4).
  destruct (encoder_part _ _ _ _ p s _ _ _ _ f Hh Ha HEn W SE) as (NF & NB & BE).
  destruct (ridge_bd _ _ _ _ _ _ p _ _ s g k _ _ r f Hh Ha HR W NF NB SS SR) as (og0 & oc0 & ot0 & ig1 & ic1 & it1 & A1 & A2 & A3 & A4 & A5 & A6 & AL & BR).
  assert (T : by_bracket c <> None -> (Y it1 < Y (ridgeIRF p) /\ Y (stILF s) <= Y (alnumILBT k))%R).
  { intros NB'. destruct (TL NB') as (x1 & x2 & x3 & x4 & EL & T1 & T2). rewrite AL in EL. injection EL as <- <- <- <-. split; assumption. }
  specialize (BR T). cbv zeta in BR.
  pose proof (walls_bd p g k r (planBoss pn) f FT W B1 B2 B3 B4 S1) as BW. cbv zeta in BW.
  pose proof (step_bd _ _ _ p _ s f HS W) as BS.
  destruct FT as [_ _ _ _ _ _ _ FN _ _].
  repeat match goal with H : Forall _ (_ :: _) |- _ => let N := fresh "N" in pose proof (Forall_inv H) as N; cbv beta in N; apply Forall_inv_tail in H end. clear FN.
  pose proof (plates_bd (keyCfg plc) fac es p s k (alnum (planLayout pn) (planSide pn)) (pinky (planLayout pn) (planSide pn)) (lthumb (planLayout pn) (planSide pn)) f HF HE SK W (fun x I => SH (planSide pn) x I)
    ltac:(assumption) ltac:(assumption) ltac:(assumption) ltac:(assumption) ltac:(assumption) ltac:(assumption) ltac:(assumption) ltac:(assumption) ltac:(assumption)) as BP.
  apply pyidx_hd in A1, A2, A3. apply pyidx_la in A4, A5, A6. destruct A1 as (_ & A1), A2 as (_ & A2), A3 as (_ & A3), A4 as (_ & A4), A5 as (_ & A5), A6 as (_ & A6).
  rewrite A1, A2, A3, A4, A5, A6 in BW. rewrite A3, A6 in BP.
  cbn [meshes bd]. rewrite BS, BP, BE, BR, BW. clear BS BP BE BR BW.
  repeat match goal with |- context[walk f (?a :: ?l ++ [?b])] => lazymatch l with nil => fail | _ :: _ => fail | _ => set (walk f (a :: l ++ [b])) end end.
  set (walk f (innerTop k)). set (walk f (outerTop k)). cbn [walk]. steps f W. lia.
Qed.
End Closed.
