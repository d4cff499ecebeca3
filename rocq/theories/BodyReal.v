(** Boundaries of the roof bracket and the cable exit over the reals, and the points of the parts that lie on the split plane. *)
From Coq Require Import Reals Lra.
From Coq Require Import ZArith List Bool Lia Arith.
From Verif Require Import Num GeoModel EdgeModel EdgeSpec EdgeMesh ArcModel MeshModel MeshSpec MeshProof LayoutModel LayoutProof BracketModel BumperModel
  PartSpec ChainProof PartProof PalmProof PlanMove GeoSpec GeoMat GeoRigid GeoPlane GeoFig ArcProof P_Arc BodyChain BodyKeys BodyParts BodyFlat.
Import ListNotations.
Open Scope Z_scope.

Section Real.
Variable q : @quality Rnum.
Variable taper : option R.
Implicit Types f : @weight Rnum.

Lemma back_again (v b : pt) : vadd b (vsub v b) = v.
Proof. destruct v as [v1 v2 v3], b as [b1 b2 b3]. apply pt_ext; alg; ring. Qed.
(** ** RoofBracket *)
Lemma boss_loop m ref f bm fg ft bg bt : mountBoss q taper m ref = Ok (bm, (fg, ft, bg, bt)) -> is_weight f -> bd f bm = - loop f [bt; bg; fg; ft].
Proof.
  intros H W. unfold mountBoss in H. cbv zeta in H. grab H. grab H. apply Ok_inj in H.
  apply pair_inj in H. destruct H as (<- & H). apply pair_inj in H. destruct H as (H & <-). apply pair_inj in H. destruct H as (H & <-). apply pair_inj in H. destruct H as (<- & <-).
  match goal with |- bd f (meshes [Strip ?t ?g true; Strip (?a :: ?e1 ++ [?b]) (?a' :: ?e2 ++ [?b']) false; _; _]) = _ =>
    set (hT := t); set (hG := g); set (m1 := e1); set (m2 := e2); set (fg := a) in *; set (bg := b) in *; set (ft := a') in *; set (bt := b') in * end.
  clearbody hT hG m1 m2 fg bg ft bt. cbn [meshes bd]. unfold loops. cbn [fold_right]. rewrite !(loop_rev f _ W).
  repeat change (open_strip f ?a ?b) with (bd f (Strip a b false)).
  rewrite (chain_strip f _ _ _ _ _ _ _ _ (ends_chain f fg bg m1) (ends_chain f ft bt m2)).
  rewrite (chain_loop f _ _ _ _ (ends_chain f fg bg m1)), (chain_loop f _ _ _ _ (ends_chain f ft bt m2)).
  unfold loop at 5. cbn [outline app firstn walk]. clear - W. generalize (loop f hT) (loop f hG) (walk f (fg :: m1 ++ [bg])) (walk f (ft :: m2 ++ [bt])). intros. steps f W. lia.
Qed.
Lemma yz_right (p : pt) m : flat p -> vyz (vadd p (V m 0%R 0%R)) = p.
Proof. destruct p as [x y z]. unfold flat, X. cbn [vx]. intros ->. apply pt_ext; alg; ring. Qed.
Lemma align_flat (p t r : pt) a : flat p -> flat t -> flat r -> flat (transformed p (mtranslated (mrotX (mtranslated mid (vopp t)) a None) r)).
Proof.
  destruct p as [p1 p2 p3], t as [t1 t2 t3], r as [r1 r2 r3]. unfold flat, X. cbn [vx]. intros -> -> ->. alg. ring.
Qed.
Lemma sketch_flat pmod c lf lb pt pg : roofSketch q pmod c = Ok (lf, lb, pt, pg) -> flats lf /\ flats lb /\ flat pt /\ flat pg /\ lf <> [] /\ lb <> [].
Proof.
  intros H. unfold roofSketch in H. cbv zeta in H.
  apply bind_ok in H; destruct H as (l1 & H1 & H). assert (F1 : flat_line l1) by fl.
  apply bind_ok in H; destruct H as (l2 & H2 & H). assert (F2 : flat_line l2) by fl.
  apply bind_ok in H; destruct H as (l3 & H3 & H). assert (F3 : flat_line l3) by fl.
  apply bind_ok in H; destruct H as (l4 & H4 & H). assert (F4 : flat_line l4) by fl.
  apply bind_ok in H; destruct H as (p1 & H5 & H). assert (F5 : flat p1) by fl.
  apply bind_ok in H; destruct H as (p2 & H6 & H). assert (F6 : flat p2) by fl.
  apply bind_ok in H; destruct H as (p3 & H7 & H). assert (F7 : flat p3) by fl.
  apply bind_ok in H; destruct H as (p4 & H8 & H). assert (F8 : flat p4) by fl.
  apply bind_ok in H; destruct H as (a1 & H9 & H). assert (F9 : flats a1) by fl.
  apply bind_ok in H; destruct H as (a2 & H10 & H). assert (F10 : flats a2) by fl.
  apply Ok_inj in H. apply pair_inj in H. destruct H as (H & <-). apply pair_inj in H. destruct H as (H & <-). apply pair_inj in H. destruct H as (<- & <-).
  split; [fl|]. split; [fl|]. split; [fl|]. split; [fl|]. split; [discriminate|]. destruct a2; discriminate.
Qed.
Lemma loop4 f (a b c d : pt) : loop f [a; b; c; d] = f a b + f b c + f c d + f d a.
Proof. unfold loop. cbn [outline app firstn walk]. lia. Qed.
Lemma roof_bd pmod c mount a b ref s r f : roofBracket q taper pmod c mount a b ref s = Ok r -> is_weight f ->
  (exists l0 le, chain f (rbRoof r) l0 le (walk f (rbRoof r)) /\ chain f (rbSplit r) le l0 (walk f (rbSplit r))) /\ flats (rbSplit r) /\
  bd f (rbMesh r) = - walk f (rbSplit r) - walk f (rbRoof r) - loop f (rbHole r).
Proof.
  intros H W. unfold roofBracket in H. cbv zeta in H.
  apply bind_ok in H; destruct H as ((((lf & lb) & posT) & posG) & Hsk & H). destruct (sketch_flat _ _ _ _ _ _ Hsk) as (FLF & FLB & FT & FG & NLF & NLB). clear Hsk.
  apply bind_ok in H; destruct H as (rd & Hrd & H). assert (Frd : flat rd) by fl.
  apply bind_ok in H; destruct H as (((hm & hl) & hr) & Hh & H).
  set (moveR := V (br_boreLength c + br_holeLength c)%num (nZ 0) (nZ 0)) in *. assert (MR : moveR = V (vx moveR) 0%R 0%R) by reflexivity. 
  apply bind_ok in H; destruct H as ((((((arm & al) & aL) & aR) & face) & re) & Hr & H). apply Ok_inj in H. subst r. cbn [rbRoof rbSplit rbHole rbMesh].
  set (g := fun p => transformed p al).
  assert (BH : bd f (Moved g hm) = loop f (map g hl) - loop f (map g hr)).
  { cbn [bd]. rewrite !loop_map. apply (screw_bd _ _ _ _ _ _ _ _ _ (fun x y => f (g x) (g y)) Hh). apply weight_map; [exact W|apply keepsR]. }
  assert (Main : flats aL /\ exists L0 Le R0 Re, chain f aL L0 Le (walk f aL) /\ chain f aR R0 Re (walk f aR) /\
    chain f re L0 Le (walk f re) /\ bd f arm + loop f face = walk f aR - f L0 R0 * -1 - f Re Le * -1 - walk f re).
  { clear BH g Hh. destruct mount as [m|].
    - apply bind_ok in Hr; destruct Hr as ((bm & (((fg & ft) & bg) & bt)) & Hb & Hr).
      pose proof (boss_loop _ _ f _ _ _ _ _ Hb W) as BB. clear Hb.
      apply bind_ok in Hr; destruct Hr as (bdir & H1 & Hr). assert (F1 : flat bdir) by fl.
      apply bind_ok in Hr; destruct Hr as (rl & H2 & Hr). assert (F2 : flat_line rl) by fl.
      apply bind_ok in Hr; destruct Hr as (apl & H3 & Hr). assert (F3 : flat_line apl) by fl.
      apply bind_ok in Hr; destruct Hr as (af & H4 & Hr). assert (F4 : flat_line af) by fl.
      apply bind_ok in Hr; destruct Hr as (ab & H5 & Hr). assert (F5 : flat_line ab) by fl.
      apply bind_ok in Hr; destruct Hr as (ao & H6 & Hr). assert (F6 : flat_line ao) by fl.
      apply bind_ok in Hr; destruct Hr as (rp & H7 & Hr). assert (F7 : flat rp) by fl.
      apply bind_ok in Hr; destruct Hr as (i0 & H8 & Hr). assert (F8 : flat i0) by fl.
      apply bind_ok in Hr; destruct Hr as (i1 & H9 & Hr). assert (F9 : flat i1) by fl.
      apply bind_ok in Hr; destruct Hr as (i2 & H10 & Hr). assert (F10 : flat i2) by fl.
      apply bind_ok in Hr; destruct Hr as (i3 & H11 & Hr). assert (F11 : flat i3) by fl.
      apply bind_ok in Hr; destruct Hr as (b0 & H12 & Hr).
      apply bind_ok in Hr; destruct Hr as (f0 & H13 & Hr). apply bind_ok in Hr; destruct Hr as (r0 & H14 & Hr).
      apply bind_ok in Hr; destruct Hr as (r1 & H15 & Hr). apply bind_ok in Hr; destruct Hr as (f1 & H16 & Hr).
      apply Ok_inj in Hr. apply pair_inj in Hr. destruct Hr as (Hr & Ere). apply pair_inj in Hr. destruct Hr as (Hr & Ef). apply pair_inj in Hr. destruct Hr as (Hr & EaR).
      apply pair_inj in Hr. destruct Hr as (Hr & EaL). apply pair_inj in Hr. destruct Hr as (Ea & Eal).
      set (align := mtranslated _ rp) in *.
      assert (FA : forall p, flat p -> flat (transformed p align)) by (intros p Fp; apply align_flat; assumption).
      assert (E1 : vyz (vadd i1 moveR) = i1) by (rewrite MR; apply yz_right, F9). rewrite E1 in *.
      set (LF := etransformed lf align) in *. assert (FLF' : flats LF) by (apply flats_map; intros p Ip; apply FA, (flats_in lf); assumption).
      assert (FLB' : flats (etransformed lb align)) by (apply flats_map; intros p Ip; apply FA, (flats_in lb); assumption).
      assert (Fb0 : flat b0) by (apply (flats_in _ _ FLB'), (pyidx_in _ _ _ H12)).
      set (LB := etranslated (etransformed lb align) (vsub i1 b0)) in *. assert (FLB2 : flats LB) by (apply flats_etranslated; fl).
      assert (AB : pyidx LB 0 = Ok i1). { change LB with (map (fun p => vadd p (vsub i1 b0)) (etransformed lb align)). rewrite (pyidx_map _ _ _ _ H12), back_again. reflexivity. }
      set (RF := etranslated LF moveR) in *. set (RB := etranslated LB moveR) in *.
      assert (AR : pyidx RB 0 = Ok (vadd i1 moveR)) by exact (pyidx_map (fun p => vadd p moveR) _ _ _ AB).
      assert (NF : RF <> []) by (unfold RF, LF, etranslated, etransformed; destruct lf; [contradiction|discriminate]).
      assert (NB : RB <> []) by (unfold RB, LB, etranslated, etransformed; destruct lb; [contradiction|discriminate]).
      assert (CRF : chain f RF (hd vzero RF) (last RF vzero) (walk f RF)) by (split; [exact NF|]; split; [reflexivity|split; reflexivity]).
      assert (CRB : chain f RB (vadd i1 moveR) (last RB vzero) (walk f RB)).
      { split; [exact NB|]. split; [|split; reflexivity]. rewrite pyidx_first in AR. destruct RB; [contradiction|]. cbn. congruence. }
      clearbody LF LB RF RB. subst arm aL aR face re. 
      split; [fl|]. exists f0, f1, r0, r1.
      split; [exact (chain_self f _ _ _ H13 H16)|]. split; [exact (chain_self f _ _ _ H14 H15)|].
      split; [split; [discriminate|]; split; [reflexivity|split; reflexivity]|].
      set (l0 := vadd i0 moveR) in *. set (l1 := vadd i1 moveR) in *. set (l2 := vadd i2 moveR) in *. set (l3 := vadd i3 moveR) in *. clearbody l0 l1 l2 l3.
      cbn [meshes bd]. rewrite BB, !loop4.
      change (open_strip f [l0; l1] (rev RB)) with (bd f (Strip [l0; l1] (rev RB) false)).
      pose proof (chain_rev _ _ _ _ _ W CRB) as KB.
      assert (K01 : chain f [l0; l1] l0 l1 (f l0 l1 + 0)) by chain.
      rewrite (chain_strip f _ _ _ _ _ _ _ _ K01 KB).
      assert (CF : chain f (RF ++ [l2; l3]) (hd vzero RF) l3 (walk f RF + f (last RF vzero) l2 + (f l2 l3 + 0))) by chain. rewrite (chain_loop _ _ _ _ _ CF).
      eassert (CR : chain f (RF ++ l2 :: RB) _ _ _) by chain.
      assert (ER0 : r0 = hd vzero RF) by (rewrite pyidx_first in H14; destruct RF; [contradiction|]; cbn in *; congruence).
      assert (ER1 : r1 = last RB vzero).
      { pose proof (chain_self f _ _ _ H14 H15) as (_ & _ & Q & _). rewrite <- Q. apply CR. }
      rewrite (chain_walk _ _ _ _ _ CR), ER0, ER1. cbn [walk]. rewrite (weight_diag f l1 W).
      set (x := hd vzero RF). set (y := last RB vzero). set (z := last RF vzero). clearbody x y z. set (w1 := walk f RF). set (w2 := walk f RB). clearbody w1 w2. clear - W. steps f W. lia.
    - apply bind_ok in Hr; destruct Hr as (f0 & H1 & Hr). apply bind_ok in Hr; destruct Hr as (be & H2 & Hr).
      assert (Ff0 : flat f0) by (apply (flats_in _ _ FLF), (pyidx_in _ _ _ H1)). assert (Fbe : flat be) by (apply (flats_in _ _ FLB), (pyidx_in _ _ _ H2)).
      set (rp := vadd (vyz a) _) in *. assert (Frp : flat rp) by (unfold rp; fl). clearbody rp.
      apply bind_ok in Hr; destruct Hr as (g0 & H3 & Hr). apply bind_ok in Hr; destruct Hr as (r0 & H4 & Hr).
      apply bind_ok in Hr; destruct Hr as (r1 & H5 & Hr). apply bind_ok in Hr; destruct Hr as (g1 & H6 & Hr).
      apply Ok_inj in Hr. apply pair_inj in Hr. destruct Hr as (Hr & Ere). apply pair_inj in Hr. destruct Hr as (Hr & Ef). apply pair_inj in Hr. destruct Hr as (Hr & EaR).
      apply pair_inj in Hr. destruct Hr as (Hr & EaL). apply pair_inj in Hr. destruct Hr as (Ea & Eal).
      set (align := mtranslated _ rp) in *. subst arm.
      split. { subst aL. apply flats_map. intros p Ip. apply align_flat; [|assumption|assumption]. apply (flats_in (lf ++ lb)); [fl|exact Ip]. }
      rewrite EaL, EaR in *. clear EaL EaR. subst face re. exists g0, g1, r0, r1.
      pose proof (chain_self f _ _ _ H4 H5) as CR.
      split; [exact (chain_self f _ _ _ H3 H6)|]. split; [exact CR|].
      split; [split; [discriminate|]; split; [reflexivity|split; reflexivity]|].
      cbn [bd]. rewrite (chain_loop _ _ _ _ _ CR). cbn [walk]. clear - W. set (w := walk f aR). clearbody w. steps f W. lia. }
  destruct Main as (FL & L0 & Le & R0 & Re & CL & CR & CE & B). split; [exists L0, Le; split; [exact CE|]|split; [apply flats_rev, FL|]].
  - rewrite walk_rev by exact W. apply chain_rev; assumption.
  - cbn [meshes]. change (bd f arm + (bd f (Moved g hm) + (loop f face + loops f [map g hr] + (bd f (Strip aL aR false) + 0))) = - walk f (rev aL) - walk f re - loop f (rev (map g hl))).
    rewrite BH, (chain_strip f _ _ _ _ _ _ _ _ CL CR), (walk_rev f _ W), (loop_rev f _ W). unfold loops. cbn [fold_right].
    pose proof (proj1 W Re Le). lia.
Qed.
End Real.
