(** The boundaries of step, plates, encoder and walls. *)
From Coq Require Import Reals Lra.
From Coq Require Import ZArith List Bool Lia Arith.
From Verif Require Import Num GeoModel EdgeModel EdgeSpec EdgeMesh ArcModel MeshModel MeshSpec MeshProof KeyModel LayoutModel LayoutProof BossModel PlanModel BracketModel BumperModel BodyModel
  PartSpec ChainProof PartProof PalmProof PlanMove GeoSpec GeoMat GeoRigid GeoPlane GeoFig ArcSpec ArcProof P_Arc BodyChain BodyKeys BodyParts BodyFlat BodyReal BodyHole BodyCable BodyRidge BodyMade.
Import ListNotations.
Open Scope Z_scope.

Ltac all_chains f := repeat match goal with
  | |- context[loop f ?l] => let C := fresh in eassert (C : chain f l _ _ _) by chain2; rewrite (chain_loop _ _ _ _ _ C); clear C
  | |- context[open_strip f ?s ?o] => let C := fresh in let C' := fresh in eassert (C : chain f s _ _ _) by chain2; eassert (C' : chain f o _ _ _) by chain2;
      rewrite (chain_ostrip _ _ _ _ _ _ _ _ _ C C'); clear C C' end.

Section Shell.
Variables (h amax : R) (taper : option R) (pmod : R -> R -> R) (pasin : R -> res R) (c : @body_cfg Rnum).
Notation q := (@mkQuality Rnum h amax).
Implicit Types f : @weight Rnum.

Lemma step_bd p ps s f : bodyStep q c p ps = Ok s -> is_weight f ->
  bd f (stMesh s) = - walk f (ridgeIRF p :: stIG s ++ [alnumIRFp p]) - walk f (alnumORFp p :: stOG s ++ [ridgeORF p])
    + f (stILF s) (alnumIRFp p) + f (ridgeIRF p) (stILF s) + f (stOLF s) (ridgeORF p) + f (alnumORFp p) (stOLF s).
Proof.
  intros H W. unfold bodyStep in H. cbv zeta in H. do 11 grab H. apply Ok_inj in H. subst s. cbn [stMesh stIG stOG stILF stOLF]. cbn [meshes bd].
  assert (E : forall (a b o : @vec Rnum) l, open_strip f [o] (a :: l ++ [b]) = - walk f (a :: l ++ [b]) + f o b - f o a).
  { intros a b o l. unfold open_strip. change (a :: l ++ [b]) with ((a :: l) ++ [b]). rewrite last_last. cbn [last hd app]. change (walk f [o]) with 0. lia. }
  assert (E2 : forall (a b : @vec Rnum) l r, open_strip f (a :: l ++ [b]) (a :: r ++ [b]) = walk f (a :: l ++ [b]) - walk f (a :: r ++ [b])).
  { intros a b l r. unfold open_strip. change (a :: l ++ [b]) with ((a :: l) ++ [b]). change (a :: r ++ [b]) with ((a :: r) ++ [b]). rewrite !last_last. cbn [hd app]. rewrite !(weight_diag f _ W). lia. }
  rewrite !E, !E2. rewrite (proj1 W x0 (ridgeIRF p)), (proj1 W x1 (alnumORFp p)). lia.
Qed.

Lemma encoder_part p s m encF encB op f : (0 < h)%R -> (0 < amax)%R -> bodyEncoder q taper c p s = Ok (m, encF, encB, op) -> is_weight f -> Forall (no_short_open mu) op ->
  encF <> [] /\ encB <> [] /\
  bd f m = walk f [vyz (stILF s); stILF s; ridgeIRF p; vyz (ridgeIRF p)] + walk f [vyz (ridgeORF p); ridgeORF p; stOLF s; vyz (stOLF s)]
    - walk f (vyz (ridgeORF p) :: eyz encF ++ [vyz (ridgeIRF p)]) - walk f (vyz (stILF s) :: eyz encB ++ [vyz (stOLF s)]).
Proof.
  intros Hh Ha H W S. unfold bodyEncoder in H. cbv zeta in H. destruct (by_encoder c) as [ec|].
  - apply bind_ok in H; destruct H as (pI & _ & H). apply bind_ok in H; destruct H as (pO & HO & H). apply bind_ok in H; destruct H as (pl & Hpl & H).
    apply bind_ok in H; destruct H as (e & He & H). apply bind_ok in H; destruct H as (ins & _ & H). destruct (negb _); [discriminate|]. apply Ok_inj in H.
    apply pair_inj in H; destruct H as (H & <-). apply pair_inj in H; destruct H as (H & <-). apply pair_inj in H; destruct H as (<- & <-).
    assert (Fn : flat (pnormal pO)).
    { unfold planePoints, newPlane in HO. apply bind_ok in HO. destruct HO as (n & Hn & HO). apply Ok_inj in HO. subst pO. cbn [pnormal].
      apply vnorm_ok in Hn. destruct Hn as (_ & ->). apply flat_scaled. destruct (ridgeORF p) as [o1 o2 o3]. destruct (stOLF s) as [s1 s2 s3].
      unfold flat, vcross, vsub, vyz, X. cbn [vx vy vz]. rn. ring. }
    assert (Fp : flat (ppos pl) /\ flat (pnormal pl)).
    { unfold newPlane in Hpl. apply bind_ok in Hpl. destruct Hpl as (n & Hn & Hpl). apply Ok_inj in Hpl. subst pl. cbn [pnormal ppos]. split; [|apply vnorm_ok in Hn; destruct Hn as (_ & ->); apply flat_scaled, Fn].
      apply flat_add; apply flat_scale; reflexivity. }
    destruct Fp as (Fp & Fq). destruct (encoder_flat _ _ _ _ _ _ _ Hh Ha He Fq Fp) as (FF & FB).
    destruct (encoder_bd _ _ _ _ _ _ f He W) as (B & ER & g0 & g5 & t0 & t1 & C1 & C2 & C3 & C4).
    split; [exact (proj1 C3)|]. split; [exact (proj1 C4)|].
    pose proof (collapsed_chain f mu _ _ _ _ W C1 (Forall_inv S)) as C5. rewrite ER, (flats_yz _ FF), (flats_yz _ FB).
    cbn [meshes bd]. rewrite B. change (loops f []) with 0. all_chains f.
    match goal with |- context[walk f (?a :: enSplitF e ++ [?b])] => eassert (D1 : chain f (a :: enSplitF e ++ [b]) _ _ _) by chain2 end.
    match goal with |- context[walk f (?a :: enSplitB e ++ [?b])] => eassert (D2 : chain f (a :: enSplitB e ++ [b]) _ _ _) by chain2 end.
    rewrite (chain_walk _ _ _ _ _ D1), (chain_walk _ _ _ _ _ D2). clear D1 D2. cbn [walk]. steps f W. lia.
  - apply Ok_inj in H. apply pair_inj in H; destruct H as (H & <-). apply pair_inj in H; destruct H as (H & <-). apply pair_inj in H; destruct H as (<- & <-).
    split; [discriminate|]. split; [discriminate|]. cbn [meshes bd eyz map app]. change (loops f []) with 0. all_chains f. cbn [walk]. rewrite !(weight_diag f _ W). steps f W. lia.
Qed.

(* the edges of the roof, inside and outside *)
Definition innerTop (k : @chamfersB Rnum) := alnumILBT k :: eLBT k ++ alnumIRBT k :: eRBT k ++ ciRBT k ++ ciRFT k ++ eRFT k ++ thumbIRFT k :: eLFT k ++ ciLFT k.
Definition outerTop (k : @chamfersB Rnum) := coLFT k ++ thumbORFT k :: coRFT k ++ coRBT k ++ [alnumORBT k; alnumOLBT k].
Lemma plates_bd kc fac es p s k alnumK pinkyK thumbK f : keyFactory kc = Ok fac -> key_edges kc = Ok es -> Forall (no_short_open (nQ 1 1000)) es -> is_weight f ->
  (forall x, In x (alnumK ++ pinkyK ++ thumbK) -> kfactory x = fac) ->
  eRBT k <> [] -> ciRBT k <> [] -> ciRFT k <> [] -> eRFT k <> [] -> eLFT k <> [] -> ciLFT k <> [] -> coRFT k <> [] -> coRBT k <> [] -> coLFT k <> [] ->
  bd f (bodyPlates p s k alnumK pinkyK thumbK) =
    walk f (innerTop k) + f (last (ciLFT k) vzero) (ridgeIRF p) + walk f (ridgeIRF p :: stIG s ++ [alnumIRFp p]) + f (alnumIRFp p) (stILF s) + f (stILF s) (alnumILBT k)
    + walk f (outerTop k) + f (alnumOLBT k) (stOLF s) + f (stOLF s) (alnumORFp p) + walk f (alnumORFp p :: stOG s ++ [ridgeORF p]) + f (ridgeORF p) (hd vzero (coLFT k)).
Proof.
  intros HF HE HS W HK N1 N2 N3 N4 N5 N6 N7 N8 N9. unfold bodyPlates. cbv zeta. rewrite meshes_app.
  pose proof (keys_bd kc fac es (alnumK ++ pinkyK ++ thumbK) f HF HE HS W HK) as KB. rewrite !map_app in KB. rewrite !loops_app in KB. rewrite !map_app.
  cbn [meshes bd]. set (KM := bd f (meshes _)) in *. clearbody KM.
  repeat match goal with |- context[loops f ?l] => set (loops f l) in * end.
  assert (M1 : may_be_empty (eLBT k)) by exact I. assert (M2 : may_be_empty (stIG s)) by exact I. assert (M3 : may_be_empty (stOG s)) by exact I.
  rewrite loop_rot. rewrite (loop_cons f (alnumIRBT k) (_ ++ eLBT k)).
  pose proof (chain_any f _ N1) as C1. pose proof (chain_any f _ N2) as C2. pose proof (chain_any f _ N3) as C3. pose proof (chain_any f _ N4) as C4. pose proof (chain_any f _ N5) as C5.
  pose proof (chain_any f _ N6) as C6. pose proof (chain_any f _ N7) as C7. pose proof (chain_any f _ N8) as C8. pose proof (chain_any f _ N9) as C9.
  cbn [app]. rewrite <- ?app_assoc. cbn [app].
  match goal with |- context[walk f ?l] => eassert (D1 : chain f l _ _ _) by chain2; rewrite (chain_walk _ _ _ _ _ D1); clear D1 end.
  all_chains f.
  unfold innerTop, outerTop.
  match goal with |- context[walk f (alnumILBT k :: eLBT k ++ alnumIRBT k :: eRBT k ++ ?l)] => eassert (D1 : chain f (alnumILBT k :: eLBT k ++ alnumIRBT k :: eRBT k ++ l) _ _ _) by chain2; rewrite (chain_walk _ _ _ _ _ D1); clear D1 end.
  match goal with |- context[walk f (coLFT k ++ ?l)] => eassert (D1 : chain f (coLFT k ++ l) _ _ _) by chain2; rewrite (chain_walk _ _ _ _ _ D1); clear D1 end.
  unfold flux, circ. cbn [fold_right ta tb tc]. steps f W. lia.
Qed.

Lemma ne_len (A B : Type) (l : list A) (l' : list B) : length l = length l' -> l' <> [] -> l <> [].
Proof. intros E H ->. apply H. destruct l'; [reflexivity|discriminate]. Qed.
Lemma map_ne (A B : Type) (g : A -> B) l : l <> [] -> map g l <> [].
Proof. destruct l; [contradiction|discriminate]. Qed.
(* what the corners and chamfers have in common *)
Record fits (p : @points Rnum) (g : @cornersB Rnum) (k : @chamfersB Rnum) : Prop := mkFits {
  f_oLF : exy (oLFC k) = oLFG g; f_oRF : exy (oRFC k) = oRFG g; f_oRB : exy (oRBC k) = oRBG g;
  f_iLF : exy (iLFC k) = iLFG g; f_iRF : exy (iRFC k) = iRFG g; f_iRB : exy (iRBC k) = iRBG g;
  f_level : Forall (fun l => exy l = l) [oLFG g; oRFG g; oRBG g; iLFG g; iRFG g; iRBG g];
  f_ne : Forall (fun l => l <> []) [oLFG g; oRFG g; oRBG g; iLFG g; iRFG g; iRBG g; oLFC k; oRFC k; oRBC k; iLFC k; iRFC k; iRBC k; coLFT k; coRFT k; coRBT k; ciLFT k; ciRFT k; ciRBT k;
                                    eRBC k; eRFC k; eLFC k; eRBT k; eRFT k; eLFT k];
  f_pts : vxy (thumbORFC k) = vxy (thumbORFp p) /\ vxy (alnumORBC k) = vxy (alnumORBp p) /\ vxy (alnumOLBC k) = vxy (alnumOLBp p) /\ vxy (alnumILBC k) = vxy (alnumILBp p) /\
          vxy (alnumIRBC k) = vxy (alnumIRBp p) /\ vxy (thumbIRFC k) = vxy (thumbIRFp p);
  f_left : vyz (last (iLFG g) vzero) = vxy (vyz (thumbILFp p)) /\ vyz (hd vzero (oLFG g)) = vxy (vyz (thumbOLFp p)) }.
Lemma body_fits p ps bs g s k : (0 < h)%R -> (0 < amax)%R -> (eps <= by_outerCornerRadius c - by_wallThickness c)%R -> (eps <= by_outerCornerRadius c)%R ->
  bodyCorners q c p ps bs = Ok g -> bodyChamfers c p ps g s = Ok k -> fits p g k.
Proof.
  intros Hh Ha Hi Ho HG HK. unfold bodyCorners in HG. cbv zeta in HG.
  apply bind_ok in HG; destruct HG as (a1 & A1 & HG). apply bind_ok in HG; destruct HG as (a2 & A2 & HG). apply bind_ok in HG; destruct HG as (a3 & A3 & HG).
  apply bind_ok in HG; destruct HG as (a4 & A4 & HG). apply bind_ok in HG; destruct HG as (a5 & A5 & HG). apply bind_ok in HG; destruct HG as (a6 & A6 & HG).
  apply bind_ok in HG; destruct HG as (t1 & T1 & HG). apply bind_ok in HG; destruct HG as (t2 & T2 & HG). apply bind_ok in HG; destruct HG as (t3 & T3 & HG).
  apply bind_ok in HG; destruct HG as (t4 & T4 & HG). apply bind_ok in HG; destruct HG as (t5 & T5 & HG). apply bind_ok in HG; destruct HG as (t6 & T6 & HG).
  apply bind_ok in HG; destruct HG as (e1 & _ & HG). apply bind_ok in HG; destruct HG as (e2 & _ & HG). apply bind_ok in HG; destruct HG as (e3 & _ & HG). apply bind_ok in HG; destruct HG as (e4 & _ & HG).
  apply bind_ok in HG; destruct HG as (x1 & X1 & HG). grab HG. clear Q. match type of HG with (if ?b then _ else _) = _ => destruct b; [discriminate|] end.
  apply bind_ok in HG; destruct HG as (x2 & X2 & HG). match type of HG with (if ?b then _ else _) = _ => destruct b; [discriminate|] end.
  apply bind_ok in HG; destruct HG as (x3 & X3 & HG). grab HG. clear Q. match type of HG with (if ?b then _ else _) = _ => destruct b; [discriminate|] end.
  apply Ok_inj in HG. subst g.
  destruct (corner_ends _ _ _ _ _ _ _ Hh Ha Hi A1) as (N1 & Z1 & _ & L1). destruct (corner_ends _ _ _ _ _ _ _ Hh Ha Hi A2) as (N2 & Z2 & _). destruct (corner_ends _ _ _ _ _ _ _ Hh Ha Hi A3) as (N3 & Z3 & _).
  destruct (corner_ends _ _ _ _ _ _ _ Hh Ha Ho A4) as (N4 & Z4 & L4 & _). destruct (corner_ends _ _ _ _ _ _ _ Hh Ha Ho A5) as (N5 & Z5 & _). destruct (corner_ends _ _ _ _ _ _ _ Hh Ha Ho A6) as (N6 & Z6 & _).
  specialize (L1 eq_refl). specialize (L4 eq_refl).
  pose proof (ne_len _ _ _ _ (raised_len _ _ _ T1) N1) as M1. pose proof (ne_len _ _ _ _ (raised_len _ _ _ T2) N2) as M2. pose proof (ne_len _ _ _ _ (raised_len _ _ _ T3) N3) as M3.
  pose proof (ne_len _ _ _ _ (raised_len _ _ _ T4) N4) as M4. pose proof (ne_len _ _ _ _ (raised_len _ _ _ T5) N5) as M5. pose proof (ne_len _ _ _ _ (raised_len _ _ _ T6) N6) as M6.
  apply pyidx_la in X1. apply pyidx_la in X2. apply pyidx_la in X3. destruct X1 as (X1 & _). destruct X2 as (X2 & _). destruct X3 as (X3 & _).
  unfold bodyChamfers in HK. cbv zeta in HK. cbn [oLFT oRFT oRBT iLFT iRFT iRBT eLB eRB eRF eLF] in HK.
  apply bind_ok in HK; destruct HK as (lft & B1 & HK). apply bind_ok in HK; destruct HK as (rft & B2 & HK). apply bind_ok in HK; destruct HK as (rbt & B3 & HK).
  do 5 (apply bind_ok in HK; destruct HK as (? & _ & HK)).
  apply bind_ok in HK; destruct HK as (lb & _ & HK). apply bind_ok in HK; destruct HK as (rb & B5 & HK). apply bind_ok in HK; destruct HK as (rf & B6 & HK). apply bind_ok in HK; destruct HK as (lf & B7 & HK).
  apply bind_ok in HK; destruct HK as (irb & B8 & HK). apply bind_ok in HK; destruct HK as (irf & B9 & HK). apply bind_ok in HK; destruct HK as (ilf & B10 & HK).
  do 5 (apply bind_ok in HK; destruct HK as (? & _ & HK)). apply Ok_inj in HK. subst k.
  pose proof (ne_len _ _ _ _ (chamfer_len _ _ _ _ _ _ B1) M4). pose proof (ne_len _ _ _ _ (chamfer_len _ _ _ _ _ _ B2) M5). pose proof (ne_len _ _ _ _ (chamfer_len _ _ _ _ _ _ B3) M6).
  pose proof (ne_len _ _ _ _ (chamfer_len _ _ _ _ _ _ B5) X1). pose proof (ne_len _ _ _ _ (chamfer_len _ _ _ _ _ _ B6) X2). pose proof (ne_len _ _ _ _ (chamfer_len _ _ _ _ _ _ B7) X3).
  pose proof (ne_len _ _ _ _ (chamfer_len _ _ _ _ _ _ B8) M3). pose proof (ne_len _ _ _ _ (chamfer_len _ _ _ _ _ _ B9) M2). pose proof (ne_len _ _ _ _ (chamfer_len _ _ _ _ _ _ B10) M1).
  constructor; cbn [oLFC oRFC oRBC iLFC iRFC iRBC oLFG oRFG oRBG iLFG iRFG iRBG coLFT coRFT coRBT ciLFT ciRFT ciRBT eRBC eRFC eLFC eRBT eRFT eLFT thumbORFC alnumORBC alnumOLBC alnumILBC alnumIRBC thumbIRFC].
  - exact (eq_trans (lowered_xy t4 _) (eq_trans (raised_xy _ _ _ T4) (level_xy _ Z4))).
  - exact (eq_trans (lowered_xy t5 _) (eq_trans (raised_xy _ _ _ T5) (level_xy _ Z5))).
  - exact (eq_trans (lowered_xy t6 _) (eq_trans (raised_xy _ _ _ T6) (level_xy _ Z6))).
  - exact (eq_trans (lowered_xy t1 _) (eq_trans (raised_xy _ _ _ T1) (level_xy _ Z1))).
  - exact (eq_trans (lowered_xy t2 _) (eq_trans (raised_xy _ _ _ T2) (level_xy _ Z2))).
  - exact (eq_trans (lowered_xy t3 _) (eq_trans (raised_xy _ _ _ T3) (level_xy _ Z3))).
  - repeat (constructor; [apply level_xy; assumption|]). constructor.
  - repeat (constructor; [assumption || (apply map_ne; assumption)|]). constructor.
  - split; [apply lowered_one|]. split; [apply lowered_one|]. split; [apply lowered_one|]. split; [apply lowered_one|]. split; apply lowered_one.
  - assert (G : forall (a b : pt), Y a = Y b -> GeoSpec.Z a = 0%R -> vyz a = vxy (vyz b)) by (intros [u1 u2 u3] [v1 v2 v3]; unfold Y, GeoSpec.Z, vyz, vxy; cbn [vx vy vz]; intros -> ->; reflexivity).
    split; apply G; try assumption.
    + destruct (exists_last N1) as (r & z & E). rewrite E in *. rewrite last_last. apply Forall_app in Z1. exact (Forall_inv (proj2 Z1)).
    + destruct a4 as [|z r]; [contradiction|]. exact (Forall_inv Z4).
Qed.
End Shell.
