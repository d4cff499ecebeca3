(** The boundary of ridge, brackets and cable exit. *)
From Coq Require Import Reals Lra.
From Coq Require Import ZArith List Bool Lia Arith.
From Verif Require Import Num GeoModel EdgeModel EdgeSpec EdgeMesh ArcModel MeshModel MeshSpec MeshProof KeyModel LayoutModel LayoutProof BossModel PlanModel BracketModel BumperModel BodyModel
  PartSpec ChainProof PartProof PalmProof PlanMove GeoSpec GeoMat GeoRigid GeoPlane GeoFig ArcSpec ArcProof P_Arc BodyChain BodyKeys BodyParts BodyFlat BodyReal BodyHole BodyCable.
Import ListNotations.
Open Scope Z_scope.

Section Ridge.
Variables (h amax : R) (taper : option R) (pmod : R -> R -> R) (pasin : R -> res R) (c : @body_cfg Rnum).
Notation q := (@mkQuality Rnum h amax).
Implicit Types f : @weight Rnum.

Lemma walk_two f (a b : @vec Rnum) : walk f [a; b] = f a b. Proof. cbn [walk]. lia. Qed.
Lemma finish_bd f sF hF sB hB OB IT IB oRF oRB iLF iRF extra : is_weight f -> no_short mu (eyz sF) -> no_short mu (eyz sB) -> no_short mu IB ->
  bd f (meshes ([Fill (collapsed (eyz sF) mu) hF; Fill (collapsed (eyz sB) mu) hB; Fill OB []; Fill IT []; Fill (collapsed IB mu) []; Strip oRF (eyz oRF) false; Strip (eyz oRB) oRB false; Strip iLF iRF false] ++ extra)) =
  loop f (eyz sF) + loops f hF + (loop f (eyz sB) + loops f hB) + loop f OB + loop f IT + loop f IB + bd f (Strip oRF (eyz oRF) false) + bd f (Strip (eyz oRB) oRB false) + bd f (Strip iLF iRF false) + bd f (meshes extra).
Proof.
  intros W S1 S2 S3. rewrite meshes_app. cbn [meshes bd]. rewrite !(collapsed_loop f mu) by assumption. change (loops f []) with 0. lia.
Qed.
Lemma chain_ostrip f s o a b w a' b' w' : chain f s a b w -> chain f o a' b' w' -> open_strip f s o = w - w' + f b b' - f a a'.
Proof. exact (chain_strip f s o a b w a' b' w'). Qed.
Ltac all_loops f := repeat match goal with
  | |- context[loop f ?l] => let C := fresh in eassert (C : chain f l _ _ _) by chain; rewrite (chain_loop _ _ _ _ _ C); clear C
  | |- context[open_strip f ?s ?o] => let C := fresh in let C' := fresh in eassert (C : chain f s _ _ _) by chain; eassert (C' : chain f o _ _ _) by chain;
      rewrite (chain_ostrip _ _ _ _ _ _ _ _ _ C C'); clear C C' end.
Lemma loops_app f a b : loops f (a ++ b) = loops f a + loops f b.
Proof. unfold loops. induction a as [|x a IH]; [reflexivity|]. cbn [app fold_right]. rewrite IH. lia. Qed.
Lemma eyz_app (l r : list (@vec Rnum)) : eyz (l ++ r) = eyz l ++ eyz r. Proof. apply map_app. Qed.
Lemma eyz_cons (a : @vec Rnum) r : eyz (a :: r) = vyz a :: eyz r. Proof. reflexivity. Qed.
Lemma vyz_twice (a : @vec Rnum) : vyz (vyz a) = vyz a. Proof. reflexivity. Qed.
Lemma ridge_bd p y sd s g k encF encB r f : (0 < h)%R -> (0 < amax)%R ->
  bodyRidge q taper pmod pasin c p y sd s g k encF encB = Ok r -> is_weight f -> encF <> [] -> encB <> [] ->
  Forall (no_short mu) (rgShort r) -> Forall (no_short_open mu) (rgOpen r) ->
  exists og0 oc0 ot0 ig1 ic1 it1,
    pyidx (oLFG g) 0 = Ok og0 /\ pyidx (oLFC k) 0 = Ok oc0 /\ pyidx (coLFT k) 0 = Ok ot0 /\ pyidx (iLFG g) (-1) = Ok ig1 /\ pyidx (iLFC k) (-1) = Ok ic1 /\ pyidx (ciLFT k) (-1) = Ok it1 /\ rgLine r = [it1; ridgeIRF p; stILF s; alnumILBT k] /\
  ((by_bracket c <> None -> (Y it1 < Y (ridgeIRF p) /\ Y (stILF s) <= Y (alnumILBT k))%R) ->
  let O := ridgeORF p in let I := ridgeIRF p in let ilf := stILF s in let olf := stOLF s in let ilbG := vxy (alnumILBp p) in let olbG := vxy (alnumOLBp p) in
  bd f (rgMesh r) =
    f (vyz ig1) (vyz og0) + walk f [og0; oc0; ot0; O; vyz O] - f og0 (vyz og0) + walk f (vyz O :: eyz encF ++ [vyz I]) - walk f [vyz ig1; ig1; ic1; it1; I; vyz I]
    + walk f [alnumOLBC k; olbG; vyz olbG; vyz ilbG; ilbG; alnumILBC k; rgWall r; rgRoof r; alnumILBT k; ilf; vyz ilf]
    + walk f (vyz ilf :: eyz encB ++ [vyz olf]) + walk f [vyz olf; olf; alnumOLBT k; alnumOLBC k]).
Proof.
  intros Hh Ha H W NF NB SS SO. unfold bodyRidge in H. cbv zeta in H.
  apply bind_ok in H; destruct H as (og0 & A1 & H). apply bind_ok in H; destruct H as (oc0 & A2 & H). apply bind_ok in H; destruct H as (ot0 & A3 & H).
  apply bind_ok in H; destruct H as (ig1 & A4 & H). apply bind_ok in H; destruct H as (ic1 & A5 & H). apply bind_ok in H; destruct H as (it1 & A6 & H).
  exists og0, oc0, ot0, ig1, ic1, it1. do 6 (split; [assumption|]).
  split. { destruct (by_bracket c) as [bc|]; [|apply Ok_inj in H; subst r; reflexivity]. grabs H. repeat match type of H with
    | (if ?b then _ else _) = _ => destruct b; [discriminate|] | bind _ _ = _ => grab H | (let '(_, _) := ?x in _) = _ => destruct x end. apply Ok_inj in H. subst r. reflexivity. }
  intros T O I ilf olf ilbG olbG.
  fold O I ilf olf ilbG olbG in H. fold O I ilf in T. clearbody O I ilf olf ilbG olbG.
  assert (CF : chain f (eyz encF) (hd vzero (eyz encF)) (last (eyz encF) vzero) (walk f (eyz encF))) by (split; [destruct encF; [contradiction|discriminate]|split; [reflexivity|split; reflexivity]]).
  assert (CB : chain f (eyz encB) (hd vzero (eyz encB)) (last (eyz encB) vzero) (walk f (eyz encB))) by (split; [destruct encB; [contradiction|discriminate]|split; [reflexivity|split; reflexivity]]).
  set (EF := eyz encF) in *. set (EB := eyz encB) in *.
  set (f0 := hd vzero EF) in *. set (f1 := last EF vzero) in *. set (b0 := hd vzero EB) in *. set (b1 := last EB vzero) in *.
  assert (WF : walk f (vyz O :: EF ++ [vyz I]) = f (vyz O) f0 + (walk f EF + f f1 (vyz I) + 0)).
  { eassert (C' : chain f (vyz O :: EF ++ [vyz I]) _ _ _) by chain. exact (chain_walk _ _ _ _ _ C'). }
  assert (WB : walk f (vyz ilf :: EB ++ [vyz olf]) = f (vyz ilf) b0 + (walk f EB + f b1 (vyz olf) + 0)).
  { eassert (C' : chain f (vyz ilf :: EB ++ [vyz olf]) _ _ _) by chain. exact (chain_walk _ _ _ _ _ C'). }
  rewrite WF, WB. clear WF WB.
  destruct (by_bracket c) as [bc|].
  - apply bind_ok in H; destruct H as (bF & HbF & H). apply bind_ok in H; destruct H as (bB & HbB & H). apply bind_ok in H; destruct H as (ref & _ & H).
    apply bind_ok in H; destruct H as (bT & HbT & H). do 4 grab H. grab H. clear Q Q0 Q1 Q2 Q3. destruct (_ || _ || _); [discriminate|].
    apply bind_ok in H; destruct H as (wl & Awl & H). grab H. clear Q. destruct (_ || _); [discriminate|].
    apply bind_ok in H; destruct H as (w0 & Aw0 & H). apply bind_ok in H; destruct H as (rf0 & Arf0 & H).
    apply bind_ok in H; destruct H as (((((sC & wB) & wF) & cm) & op) & Hcb & H). apply Ok_inj in H. subst r. cbn [rgMesh rgWall rgRoof rgShort rgOpen] in *.
    pose proof (Forall_inv SS) as S1. apply Forall_inv_tail in SS. pose proof (Forall_inv SS) as S2. apply Forall_inv_tail in SS. pose proof (Forall_inv SS) as S3. apply Forall_inv_tail in SS. rename SS into SS3.
    apply Forall_app in SS3. destruct SS3 as (SF & SB).
    destruct (T ltac:(discriminate)) as (TF & TB). clear T.
    assert (TF' : nltb (vy (vyz it1)) (vy (vyz I)) = true) by (apply Rltb_true; exact TF).
    assert (TB' : nltb (vy (vyz (alnumILBT k))) (vy (vyz ilf)) = false) by (apply Rltb_false; exact TB).
    destruct (cornerFront_bd _ _ _ _ _ _ _ _ _ _ _ f HbF TF' W (keepsR vmirY) SF) as (fw0 & fw1 & fr0 & fr1 & CFW & CFR & CFS & BF).
    destruct (cornerBack_bd _ _ _ _ _ _ _ _ _ _ _ f HbB TB' W SB) as (bw0 & bw1 & br0 & br1 & CBW & CBR & CBS & BB).
    destruct (roof_bd _ _ _ _ _ _ _ _ _ _ f HbT W) as ((l0 & le & CTR & CTS) & FT & BT).
    pose proof (corner_flat _ _ _ _ _ _ _ _ _ _ _ HbF) as FF. pose proof (corner_flat _ _ _ _ _ _ _ _ _ _ _ HbB) as FB.
    assert (Ew0 : bw0 = w0) by (destruct CBW as (Q & <- & _); rewrite pyidx_first in Aw0; destruct (cbWall bB); [contradiction|]; cbn; congruence).
    assert (Ewl : bw1 = wl). { pose proof (chain_self f _ _ _ Aw0 Awl) as (_ & _ & Q & _). destruct CBW as (_ & _ & Q' & _). congruence. }
    assert (Erf : br0 = rf0) by (destruct CBR as (Q & <- & _); rewrite pyidx_first in Arf0; destruct (cbRoof bB); [contradiction|]; cbn; congruence).
    subst bw0 bw1 br0.
    assert (Fw0 : flat w0). { destruct CBS as (Q & Q' & _). destruct (cbSplit bB); [contradiction|]. cbn in Q'. subst. exact (Forall_inv FB). }
    clear HbF HbB HbT Aw0 Awl Arf0 SF SB TF TB TF' TB'.
    rewrite (finish_bd _ _ _ _ _ _ _ _ _ _ _ _ _ W S1 S2 S3). clear S1 S2 S3. rewrite meshes_app, !loops_app.
    repeat rewrite eyz_app || rewrite eyz_cons. rewrite ?vyz_twice. fold EF EB. rewrite (flats_yz (cbSplit bF) FF), (flats_yz (cbSplit bB) FB), (flats_yz (rbSplit bT) FT).
    change (eyz []) with (@nil (@vec Rnum)). cbn [app].
    destruct (by_cable c) as [cc|].
    + apply bind_ok in Hcb; destruct Hcb as (cab & Hc & Hcb). apply bind_ok in Hcb; destruct Hcb as (g1 & Ag1 & Hcb). apply bind_ok in Hcb; destruct Hcb as (g0 & Ag0 & Hcb).
      match type of Hcb with (if ?b then _ else _) = _ => destruct b; [discriminate|] end. apply Ok_inj in Hcb.
      apply pair_inj in Hcb; destruct Hcb as (Hcb & <-). apply pair_inj in Hcb; destruct Hcb as (Hcb & <-). apply pair_inj in Hcb; destruct Hcb as (Hcb & <-). apply pair_inj in Hcb; destruct Hcb as (<- & <-).
      destruct (cable_bd _ _ _ _ _ _ _ _ f Hh Ha Hc Fw0 W) as (BC & EG & FC & ca & cz & cy & cx & C1 & C2 & C3 & C4).
      pose proof (collapsed_chain f mu _ _ _ _ W C4 (Forall_inv SO)) as C5. rewrite <- EG in C5. rewrite (flats_yz (caSplitT cab) FC).
      cbn [meshes bd]. rewrite BC, BB, BF, BT. change (loops f [rbHole bT]) with (loop f (rbHole bT) + 0). change (loops f []) with 0.
      all_loops f. cbn [walk]. steps f W. lia.
    + apply Ok_inj in Hcb.
      apply pair_inj in Hcb; destruct Hcb as (Hcb & <-). apply pair_inj in Hcb; destruct Hcb as (Hcb & <-). apply pair_inj in Hcb; destruct Hcb as (Hcb & <-). apply pair_inj in Hcb; destruct Hcb as (<- & <-).
      rewrite !eyz_cons, !vyz_twice. change (eyz []) with (@nil (@vec Rnum)). rewrite ?app_nil_r. cbn [app].
      cbn [meshes bd]. rewrite BB, BF, BT. change (loops f [rbHole bT]) with (loop f (rbHole bT) + 0).
      all_loops f. cbn [walk]. steps f W. lia.
  - apply Ok_inj in H. subst r. cbn [rgMesh rgWall rgRoof rgShort rgOpen] in *.
    pose proof (Forall_inv SS) as S1. apply Forall_inv_tail in SS. pose proof (Forall_inv SS) as S2. apply Forall_inv_tail in SS. pose proof (Forall_inv SS) as S3. clear SS SO T.
    rewrite (finish_bd _ _ _ _ _ _ _ _ _ _ _ _ _ W S1 S2 S3). clear S1 S2 S3. change (loops f []) with 0.
    repeat rewrite eyz_app || rewrite eyz_cons. rewrite ?vyz_twice. fold EF EB. change (eyz []) with (@nil (@vec Rnum)). cbn [app meshes bd].
    all_loops f. cbn [walk]. steps f W. lia.
Qed.
End Ridge.
