(** Boundaries of the parts inside the body: encoder, brackets, cable exit. *)
From Coq Require Import ZArith List Bool Lia Arith.
From Verif Require Import Num GeoModel EdgeModel EdgeSpec EdgeMesh ArcModel MeshModel MeshSpec MeshProof KeyModel LayoutModel LayoutProof BracketModel BumperModel
  PartSpec ChainProof PartProof PalmProof BodyChain.
Import ListNotations.
Open Scope Z_scope.

Section Parts.
Context {N : Num}.
Implicit Types f : @weight N.
Variable q : @quality N.
Variable taper : option (@num N).

Lemma mapM_pyidx_last {A} (ls : list (list A)) rs : mapM (fun e => pyidx e (-1)) ls = Ok rs -> Forall2 (fun e r => pyidx e (-1) = Ok r) ls rs.
Proof. apply mapM_ok. Qed.

(** ** Encoder *)
Lemma encoder_bd c po pi e f : newEncoder q taper c po pi = Ok e -> is_weight f ->
  bd f (enMesh e) = walk f (enShort e) - walk f (enRoofO e) - walk f (enSplitF e) - walk f (enSplitB e) /\
  enRoofI e = rev (collapsed (enShort e) mu) /\
  exists g0 g5 t0 t1, chain f (enShort e) g0 g5 (walk f (enShort e)) /\ chain f (enRoofO e) t0 t1 (walk f (enRoofO e)) /\
    chain f (enSplitF e) t1 g5 (walk f (enSplitF e)) /\ chain f (enSplitB e) g0 t0 (walk f (enSplitB e)).
Proof.
  intros H W. unfold newEncoder in H. cbv zeta in H. grab H. grab H. grab H. grab H. grab H. grab H. apply Ok_inj in H. subst e.
  cbn [enMesh enRoofI enRoofO enSplitF enSplitB enShort]. clear Q Q0 Q1.
  cbn [rev app] in Q3. set (hT := etransformed (escaled _ _ _) _) in *.
  match type of Q3 with mapM _ [_; ?hc; ?hg; _; _] = _ => set (hC := hc) in *; set (hG := hg) in * end. clearbody hT hC hG.
  set (b0 := transformed (V (nZ 0) (ndiv (en_depth c) (nZ 2)) _) _) in *.
  match type of Q3 with mapM _ [_; _; _; [_; ?p1; _; ?p4; _; ?p5]; _] = _ => set (b1 := p1) in *; set (b4 := p4) in *; set (b5 := p5) in * end.
  clearbody b0 b1 b4 b5.
  apply mapM_ok in Q3, Q4.
  inversion Q3 as [|? t1 ? ? A1 F1]; subst. inversion F1 as [|? c1 ? ? A2 F2]; subst. inversion F2 as [|? h1 ? ? A3 F3]; subst.
  inversion F3 as [|? y1 ? ? A4 F4]; subst. inversion F4 as [|? g5 ? ? A5 F5]; subst. inversion F5; subst. clear Q3 F1 F2 F3 F4 F5.
  inversion Q4 as [|? g0 ? ? B5 F1]; subst. inversion F1 as [|? y0 ? ? B4 F2]; subst. inversion F2 as [|? h0 ? ? B3 F3]; subst.
  inversion F3 as [|? c0 ? ? B2 F4]; subst. inversion F4 as [|? t0 ? ? B1 F5]; subst. inversion F5; subst. clear Q4 F1 F2 F3 F4 F5.
  assert (y1 = b5) by (rewrite pyidx_last in A4; cbn [rev app] in A4; congruence). assert (y0 = b0) by (rewrite pyidx_first in B4; congruence). subst y0 y1.
  pose proof (chain_self f _ _ _ B1 A1) as CT. pose proof (chain_self f _ _ _ B2 A2) as CC. pose proof (chain_self f _ _ _ B3 A3) as CG. pose proof (chain_self f _ _ _ B5 A5) as CB.
  clear A1 A2 A3 A4 A5 B1 B2 B3 B4 B5 Q2.
  assert (CT2 : chain f [b0; b1; b1; b4; b4; b5] b0 b5 (f b0 b1 + (f b1 b1 + (f b1 b4 + (f b4 b4 + (f b4 b5 + 0)))))) by chain.
  split; [|split; [reflexivity|]].
  - cbn [meshes bd]. repeat change (open_strip f ?a ?b) with (bd f (Strip a b false)).
    rewrite (chain_strip f _ _ _ _ _ _ _ _ CC CT), (chain_strip f _ _ _ _ _ _ _ _ CG CC), (chain_strip f _ _ _ _ _ _ _ _ CB CT2).
    assert (L : loop f ([b0; b1; b4; b5] ++ rev hG) = f b0 b1 + f b1 b4 + f b4 b5 + f b5 h1 - walk f hG + f h0 b0).
    { eassert (C' : chain f ([b0; b1; b4; b5] ++ rev hG) _ _ _) by chain. rewrite (chain_loop _ _ _ _ _ C'). lia. }
    cbn [app] in *. rewrite L, (weight_diag f b1 W), (weight_diag f b4 W). unfold loops. cbn [fold_right walk]. clear - W. steps f W. lia.
  - exists g0, g5, t0, t1. split; [exact CB|]. split; [exact CT|]. split; (split; [discriminate|]; split; [reflexivity|split; reflexivity]).
Qed.

(** ** CornerBracket *)
Lemma map_chain f (g : vec -> vec) l a b w : chain f l a b w -> exists w', chain f (map g l) (g a) (g b) w'.
Proof.
  intros (H1 & H2 & H3 & _). exists (walk f (map g l)). split; [destruct l; [contradiction|discriminate]|].
  split; [destruct l; [contradiction|cbn in *; subst; reflexivity]|]. split; [|reflexivity].
  destruct (exists_last H1) as (r & y & ->). rewrite map_app. cbn [map]. rewrite last_last in *. subst. reflexivity.
Qed.
Lemma ends_chain f (a b : vec) l : chain f (a :: l ++ [b]) a b (walk f (a :: l ++ [b])).
Proof. split; [discriminate|]. split; [reflexivity|]. split; [exact (last_last (a :: l) b vzero)|reflexivity]. Qed.
Lemma corner_bd pmod pasin c cable a b d em ci s r f : cornerFwd q taper pmod pasin c cable a b d em ci s = Ok r -> is_weight f -> Forall (no_short mu) (cbShort r) ->
  exists w0 w1 r0 r1, chain f (cbWall r) w0 w1 (walk f (cbWall r)) /\ chain f (cbRoof r) r0 r1 (walk f (cbRoof r)) /\ chain f (cbSplit r) w0 r1 (walk f (cbSplit r)) /\
  bd f (cbMesh r) = walk f (cbWall r) + f w1 r0 + walk f (cbRoof r) - walk f (cbSplit r) - loops f (cbHoles r).
Proof.
  intros H W S. unfold cornerFwd in H. grab H. cbv zeta in H. grab H. destruct x0 as ((hm & hl) & hr).
  pose proof (screw_bd _ _ _ _ _ _ _ _ _ f Q0 W) as BH. clear Q0.
  set (moveR := V _ _ _) in *. clearbody moveR.
  set (A' := vadd a moveR) in *. set (D' := vadd d moveR) in *.
  destruct (map_chain f (fun p => vadd p moveR) _ _ _ _ (ends_chain f (csLBG x) (csLFT x) (csArc x))) as (wR & CR).
  change (map (fun p => vadd p moveR) (csLBG x :: csArc x ++ [csLFT x])) with (etranslated (csLBG x :: csArc x ++ [csLFT x]) moveR) in CR.
  pose proof (ends_chain f (csLBG x) (csLFT x) (csArc x)) as CL.
  set (archR := etranslated _ _) in *. set (R0 := vadd (csLBG x) moveR) in *. set (Re := vadd (csLFT x) moveR) in *. clearbody archR A' D' R0 Re.
  assert (LE : loop f (archR ++ [A'; D']) = wR + f Re A' + f A' D' + f D' R0).
  { eassert (C' : chain f (archR ++ [A'; D']) _ _ _) by chain. rewrite (chain_loop _ _ _ _ _ C'). lia. }
  destruct cable as [kc|].
  - apply bind_ok in H; destruct H as (z & Hz & H). apply bind_ok in H; destruct H as (l1 & Al1 & H). apply bind_ok in H; destruct H as (r1 & Ar1 & H).
    apply bind_ok in H; destruct H as (z0 & Az0 & H). apply bind_ok in H; destruct H as (z1 & Az1 & H). apply bind_ok in H; destruct H as (l0 & Al0 & H).
    apply bind_ok in H; destruct H as (r0 & Ar0 & H). apply Ok_inj in H. subst r. cbn [cbWall cbRoof cbSplit cbMesh cbHoles cbShort] in *.
    inversion S as [|? ? S1 S']; subst. inversion S' as [|? ? S2 _]; subst. clear S S'.
    pose proof (chain_self f _ _ _ Al0 Al1) as KL. pose proof (chain_self f _ _ _ Ar0 Ar1) as KR. pose proof (chain_self f _ _ _ Az0 Az1) as KZ.
    assert (Z : zMesh z = meshes [Fill (collapsed (zShort z) mu) []; Strip (zHole z) (zHoleR z) true; Strip (zArchL z) (zArchR z) false] /\
      zShort z = zArchR z ++ zArcR z ++ zHoleR z ++ [zRBT z] /\ exists a0 a1, chain f (zArcR z) a0 a1 (walk f (zArcR z))).
    { unfold ziptie in Hz. cbv zeta in Hz. do 3 grab Hz. destruct (nltb _ _); [discriminate|]. do 13 grab Hz. apply bind_ok in Hz; destruct Hz as (al & Aal & Hz).
      apply Ok_inj in Hz. subst z. cbn [zMesh zHole zArchL zArchR zArcR zHoleR zRBT zShort]. split; [reflexivity|]. split; [reflexivity|].
      rewrite pyidx_last in Aal. destruct (csArc x) as [|p l]; [discriminate|]. eexists _, _. split; [discriminate|]. split; [reflexivity|]. split; reflexivity. }
    destruct Z as (ZM & ZS & a0 & a1 & KA). rewrite ZS in S2, ZM. clear Hz ZS.
    exists (csLBG x), D', A', l0.
    assert (CW : chain f [csLBG x; R0; D'] (csLBG x) D' (f (csLBG x) R0 + (f R0 D' + 0))) by chain.
    assert (CF : chain f [A'; Re; zRBT z; r0; l0] A' l0 (f A' Re + (f Re (zRBT z) + (f (zRBT z) r0 + (f r0 l0 + 0))))) by chain.
    assert (CS : chain f (rev (zArchL z ++ [csLBG x])) (csLBG x) l0 (- (walk f (zArchL z) + f l1 (csLBG x) + 0))) by chain.
    split; [exact CW|]. split; [exact CF|]. split; [rewrite (chain_walk _ _ _ _ _ CS); exact CS|].
    rewrite (chain_walk _ _ _ _ _ CW), (chain_walk _ _ _ _ _ CF), (chain_walk _ _ _ _ _ CS).
    cbn [bd]. rewrite ZM. cbn [meshes bd]. rewrite BH, (loop_rev f _ W), !(collapsed_loop f mu _ W) by assumption. rewrite LE.
    repeat change (open_strip f ?a ?b) with (bd f (Strip a b false)). rewrite (chain_strip f _ _ _ _ _ _ _ _ KL KR).
    assert (CX : chain f (csLBG x :: archR) (csLBG x) Re (f (csLBG x) R0 + wR)) by chain.
    eassert (CY : chain f (l1 :: r1 :: zArcR z ++ [z0; z1; zRBT z]) _ _ _) by chain.
    rewrite (chain_strip f _ _ _ _ _ _ _ _ CX CY).
    eassert (CZ : chain f (zArchR z ++ zArcR z ++ zHoleR z ++ [zRBT z]) _ _ _) by chain. rewrite (chain_loop _ _ _ _ _ CZ).
    rewrite (chain_loop f _ _ _ _ KZ). unfold loops. cbn [fold_right]. rewrite !(loop_rev f _ W).
    set (u1 := loop f (zHole z)). set (u2 := loop f hl). set (u3 := loop f hr). set (v1 := walk f (zArchL z)). set (v2 := walk f (zArchR z)). set (v3 := walk f (zArcR z)). set (v4 := walk f (zHoleR z)).
    clearbody u1 u2 u3 v1 v2 v3 v4. clear - W. steps f W. lia.
  - apply Ok_inj in H. subst r. cbn [cbWall cbRoof cbSplit cbMesh cbHoles cbShort] in *. inversion S as [|? ? S1 _]; subst.
    exists (csLBG x), D', A', (csLFT x).
    assert (CW : chain f [csLBG x; R0; D'] (csLBG x) D' (f (csLBG x) R0 + (f R0 D' + 0))) by chain.
    assert (CF : chain f [A'; Re; csLFT x] A' (csLFT x) (f A' Re + (f Re (csLFT x) + 0))) by chain.
    split; [exact CW|]. split; [exact CF|]. split; [exact CL|].
    rewrite (chain_walk _ _ _ _ _ CW), (chain_walk _ _ _ _ _ CF).
    cbn [bd]. rewrite BH, (loop_rev f _ W), (collapsed_loop f mu _ W S1), LE.
    repeat change (open_strip f ?a ?b) with (bd f (Strip a b false)). rewrite (chain_strip f _ _ _ _ _ _ _ _ CR CL).
    unfold loops. cbn [fold_right]. rewrite (loop_rev f _ W). set (v := walk f (csLBG x :: _)). set (u2 := loop f hl). set (u3 := loop f hr). clearbody v u2 u3. clear - W. steps f W. lia.
Qed.
(* the bracket that is not turned, and the turned one *)
Lemma cornerBack_bd pmod pasin c cable a b d s r f : cornerBracket q taper pmod pasin c cable a b d s = Ok r -> nltb (vy (vyz a)) (vy (vyz b)) = false ->
  is_weight f -> Forall (no_short mu) (cbShort r) ->
  exists w0 w1 r0 r1, chain f (cbWall r) w0 w1 (walk f (cbWall r)) /\ chain f (cbRoof r) r0 r1 (walk f (cbRoof r)) /\ chain f (cbSplit r) w0 r1 (walk f (cbSplit r)) /\
  bd f (cbMesh r) = walk f (cbWall r) + f w1 r0 + walk f (cbRoof r) - walk f (cbSplit r) - loops f (cbHoles r).
Proof. intros H E. unfold cornerBracket in H. rewrite E in H. eapply corner_bd. exact H. Qed.
Lemma loops_rev_map f (g : vec -> vec) hs : is_weight f -> loops f (map (fun h => rev (map g h)) hs) = - loops (fun x y => f (g x) (g y)) hs.
Proof.
  intros W. unfold loops. induction hs as [|h hs IH]; [reflexivity|]. cbn [map fold_right]. rewrite IH, (loop_rev f _ W), loop_map. lia.
Qed.
Lemma cornerFront_bd pmod pasin c cable a b d s r f : cornerBracket q taper pmod pasin c cable a b d s = Ok r -> nltb (vy (vyz a)) (vy (vyz b)) = true ->
  is_weight f -> keeps_eq vmirY -> Forall (no_short mu) (cbShort r) ->
  exists w0 w1 r0 r1, chain f (cbWall r) w0 w1 (walk f (cbWall r)) /\ chain f (cbRoof r) r0 r1 (walk f (cbRoof r)) /\ chain f (cbSplit r) r1 w0 (walk f (cbSplit r)) /\
  bd f (cbMesh r) = - walk f (cbWall r) - f w1 r0 - walk f (cbRoof r) - walk f (cbSplit r) - loops f (cbHoles r).
Proof.
  intros H E W KE S. unfold cornerBracket in H. rewrite E in H. grab H. apply Ok_inj in H. subst r. cbn [cbWall cbRoof cbSplit cbMesh cbHoles cbShort] in *.
  assert (W' : is_weight (fun x y => f (vmirY x) (vmirY y))) by (apply (weight_map f vmirY); assumption).
  destruct (corner_bd _ _ _ _ _ _ _ _ _ _ _ (fun x y => f (vmirY x) (vmirY y)) Q W' S) as (w0 & w1 & r0 & r1 & C1 & C2 & C3 & B).
  exists (vmirY w0), (vmirY w1), (vmirY r0), (vmirY r1). unfold emirY. rewrite !walk_map, (walk_rev f _ W), walk_map.
  split; [apply chain_map; exact C1|]. split; [apply chain_map; exact C2|]. split; [apply chain_rev; [exact W|]; apply chain_map; exact C3|].
  cbn [bd]. rewrite B, loops_rev_map by exact W. lia.
Qed.

End Parts.
