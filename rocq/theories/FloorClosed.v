(** The floor has no boundary. *)
From Coq Require Import Reals Lra.
From Coq Require Import ZArith List Bool Lia Arith.
From Verif Require Import Num GeoModel EdgeModel EdgeSpec EdgeMesh ArcModel MeshModel MeshSpec MeshProof LayoutModel LayoutProof BossModel PlanModel BracketModel BumperModel BodyModel FloorModel
  PartSpec ChainProof PartProof PalmProof GeoSpec GeoMat BodyChain BodyParts BodyMade BodyKeys BodyRidge BodyShell FloorSpec.
Import ListNotations.
Open Scope Z_scope.


(** ** parts, for any arithmetic *)
Section Any.
Context {N : Num}.
Implicit Types f : @weight N.
Lemma half_chains q c h pos b f : newBumper q c h pos true = Ok b -> is_weight f -> exists g0 g1,
  chain f (buFloor b) g0 g1 (walk f (buFloor b)) /\ chain f (buSplit b) g1 g0 (walk f (buSplit b)) /\ bd f (buMesh b) = - walk f (buFloor b) - walk f (buSplit b).
Proof.
  intros H W. destruct (halfBumper_bd _ _ _ _ _ f H W) as (B & _). unfold newBumper in H. grab H. cbv zeta in H. do 4 grab H. apply Ok_inj in H. subst b. cbn [buMesh buFloor buSplit] in *.
  exists x3, x0. split; [apply chain_self; assumption|]. split; [|exact B].
  split; [discriminate|]. split; [reflexivity|]. split; reflexivity.
Qed.
Lemma bumpers_part q c pts p0 bh bs bf bm f l s x y w v : floorBumpers q c pts p0 = Ok (bh, bs, bf, bm) -> is_weight f -> chain f l x y w -> chain f s y x v ->
  loop f (l ++ bf) + loop f (s ++ bs) + bd f bm + loops f bh = w + v.
Proof.
  intros H W L S. unfold floorBumpers in H. destruct (fl_bumper c) as [bc|].
  - cbv zeta in H. do 8 grab H. injection H as <- <- <- <-.
    pose proof (bumper_bd _ _ _ _ _ f Q0 W) as B1. pose proof (bumper_bd _ _ _ _ _ f Q2 W) as B2.
    destruct (half_chains _ _ _ _ _ f Q4 W) as (g0 & g1 & C1 & D1 & B3). destruct (half_chains _ _ _ _ _ f Q6 W) as (h0 & h1 & C2 & D2 & B4).
    eassert (A1 : chain f (l ++ buFloor x5 ++ buFloor x7) _ _ _) by chain. eassert (A2 : chain f (s ++ buSplit x7 ++ buSplit x5) _ _ _) by chain.
    rewrite (chain_loop _ _ _ _ _ A1), (chain_loop _ _ _ _ _ A2). cbn [meshes bd]. unfold loops. cbn [fold_right]. rewrite B1, B2, B3, B4. clear - W.
    generalize (walk f (buFloor x5)) (walk f (buFloor x7)) (walk f (buSplit x5)) (walk f (buSplit x7)) (loop f (buFloor x1)) (loop f (buFloor x3)). intros. steps f W. lia.
  - injection H as <- <- <- <-. rewrite !app_nil_r. rewrite (chain_loop _ _ _ _ _ L), (chain_loop _ _ _ _ _ S). cbn [bd]. unfold loops. cbn [fold_right]. clear - W. steps f W. lia.
Qed.
Lemma hex_part q c fuel p6 hi ho hm f : floorHex q c fuel p6 = Ok (hi, ho, hm) -> is_weight f -> loops f hi + loops f ho + bd f hm = 0.
Proof.
  intros H W. unfold floorHex in H. destruct (fl_hex c) as [h|].
  - cbv zeta in H. do 2 grab H. injection H as <- <- <-. clear Q Q0. unfold loops. induction x0 as [|e x0 IH]; [reflexivity|].
    cbn [map fold_right meshes bd]. rewrite (loop_rev f _ W). set (fold_right _ _ _) in *. set (fold_right _ _ (map _ x0)) in *. lia.
  - injection H as <- <- <-. reflexivity.
Qed.
Lemma heads_part bs f : Forall made_boss bs -> is_weight f -> bd f (meshes (map bHead bs)) + loops f (map clearanceHole bs) + loops f (map headHole bs) = 0.
Proof.
  intros H W. unfold loops. induction H as [|b bs (q & c & pos & dir & wd & rp & K) H IH]; [reflexivity|]. cbn [map meshes bd fold_right].
  pose proof (proj1 (boss_bd _ _ _ _ _ _ _ f K W)) as B. set (fold_right _ _ _) in *. set (fold_right _ _ (map headHole bs)) in *. lia.
Qed.
Lemma setEnds_form (a a' : vec) m b b' : setEnds (a :: m ++ [b]) a' b' = Ok (a' :: m ++ [b']).
Proof. unfold setEnds. change (a' :: m ++ [b]) with ((a' :: m) ++ [b]). rewrite removelast_last. reflexivity. Qed.
End Any.

(** ** FloorBracket, over the reals *)
Section Bracket.
Variable q : @quality Rnum.
Variable taper : option R.
Variable pmod : R -> R -> R.
Variable c : @bracket_cfg Rnum.
Implicit Types f : @weight Rnum.
Lemma floorFwd_bd a b cc d e em s r f : floorFwd q taper pmod c a b cc d e em s = Ok r -> is_weight f -> no_short mu (fbShort r) -> clear_end (fbEnd r) ->
  let m := V (br_boreLength c + br_holeLength c)%R 0%R 0%R in exists a0 r0,
  fbTaper r = [a0; r0] /\ fbLip r = [vadd e m; vadd d m; vadd cc m; vadd a m] /\ chain f (fbSplit r) e a0 (walk f (fbSplit r)) /\
  bd f (fbMesh r) = - walk f (fbSplit r) + f e (vadd e m) + walk f (fbLip r) + f (vadd a m) r0 + f r0 a0 - loop f (fbHole r).
Proof.
  intros H W S CE m. unfold floorFwd in H. cbv zeta in H. do 9 grab H. match type of H with (if ?b then _ else _) = _ => destruct b; [discriminate|] end.
  do 3 grab H. cbv zeta in H. grab H. destruct x11 as ((hm & hl) & hr).
  match goal with K : screwHole _ _ _ _ _ _ = _ |- _ => pose proof (screw_bd _ _ _ _ _ _ _ _ _ f K W) as BH; clear K end.
  apply bind_ok in H. destruct H as (ae & Ae & H).
  match type of Ae with pyidx ?l _ = _ => set (A := l) in * end. clearbody A.
  change (@V Rnum (nadd (br_boreLength c) (br_holeLength c)) (nZ 0) (nZ 0)) with m in H. clearbody m.
  destruct A as [|a0 A']; [discriminate|]. assert (CA : chain f (a0 :: A') a0 ae (walk f (a0 :: A'))) by (apply chain_self; [reflexivity|exact Ae]).
  set (A := a0 :: A') in *. assert (P0 : forall l, pyidx (A ++ l) 0 = Ok a0) by reflexivity. pose proof (P0 []) as P1. rewrite app_nil_r in P1.
  set (AR := etranslated A m) in *. assert (Q1' : forall l, pyidx (AR ++ l) 0 = Ok (vadd a0 m)) by reflexivity. pose proof (Q1' []) as Q2'. rewrite app_nil_r in Q2'.
  destruct (map_chain f (fun p => vadd p m) _ _ _ _ CA) as (wR & CR). change (chain f AR (vadd a0 m) (vadd ae m) wR) in CR.
  assert (EF : etranslated (A ++ [d; cc; a]) m = AR ++ [vadd d m; vadd cc m; vadd a m]) by (unfold etranslated at 1; rewrite map_app; reflexivity).
  rewrite EF in H.
  assert (LF : loop f (AR ++ [vadd d m; vadd cc m; vadd a m]) = wR + f (vadd ae m) (vadd d m) + f (vadd d m) (vadd cc m) + f (vadd cc m) (vadd a m) + f (vadd a m) (vadd a0 m)).
  { eassert (C' : chain f (AR ++ [vadd d m; vadd cc m; vadd a m]) _ _ _) by chain. rewrite (chain_loop _ _ _ _ _ C'). lia. }
  clearbody AR. exists a0, (vadd a0 m).
  destruct (visClose ae e) eqn:CL; cbv beta iota in H; [rewrite P1 in H; cbn [bind] in H; rewrite Q2' in H|rewrite P0 in H; cbn [bind] in H; rewrite Q1' in H]; cbn [bind] in H;
    apply Ok_inj in H; subst r; cbn [fbLip fbTaper fbSplit fbMesh fbHole fbShort fbEnd] in *; (split; [reflexivity|]); (split; [reflexivity|]).
  - specialize (CE CL). cbn [fst snd] in CE. subst ae. eassert (CS : chain f (rev A) _ _ _) by chain. split; [rewrite (chain_walk _ _ _ _ _ CS); exact CS|].
    rewrite (chain_walk _ _ _ _ _ CS). cbn [meshes bd]. rewrite BH, (collapsed_loop f mu _ W S), LF. all_chains f. unfold loops. cbn [fold_right]. rewrite (loop_rev f _ W). cbn [etranslated map walk].
    generalize (walk f A) (loop f hl) (loop f hr). intros. clear - W. steps f W. lia.
  - eassert (CS : chain f (rev (A ++ [e])) _ _ _) by chain. split; [rewrite (chain_walk _ _ _ _ _ CS); exact CS|].
    rewrite (chain_walk _ _ _ _ _ CS). cbn [meshes bd]. rewrite BH, (collapsed_loop f mu _ W S), LF. all_chains f. unfold loops. cbn [fold_right]. rewrite (loop_rev f _ W). cbn [etranslated map walk].
    generalize (walk f A) (loop f hl) (loop f hr). intros. clear - W. steps f W. lia.
Qed.
(* the bracket that is not turned, and the turned one *)
Lemma bracketFront_bd a b cc d e s r f : floorBracket q taper pmod c a b cc d e s = Ok r -> (Y a < Y b)%R -> is_weight f -> no_short mu (fbShort r) -> clear_end (fbEnd r) ->
  exists a0 r0 l0 l1 l2 l3, fbTaper r = [a0; r0] /\ fbLip r = [l0; l1; l2; l3] /\ vyz l0 = vyz e /\ chain f (fbSplit r) (vyz e) a0 (walk f (fbSplit r)) /\
  bd f (fbMesh r) = - walk f (fbSplit r) + f (vyz e) l0 + walk f (fbLip r) + f l3 r0 + f r0 a0 - loop f (fbHole r).
Proof.
  intros H L W S CE. unfold floorBracket in H. match type of H with (if ?b then _ else _) = _ => destruct b eqn:C end.
  { apply Rltb_true in C. unfold Y in L. cbn [vyz vy] in C. lra. }
  destruct (floorFwd_bd _ _ _ _ _ _ _ _ _ H W S CE) as (a0 & r0 & E1 & E2 & E3 & E4). exists a0, r0. eexists _, _, _, _. split; [exact E1|]. split; [exact E2|]. split; [|split; [exact E3|exact E4]].
  destruct e as [e1 e2 e3]. unfold vyz, vadd. cbn [vx vy vz]. f_equal; cbn; ring.
Qed.
Lemma bracketBack_bd a b cc d e s r f : floorBracket q taper pmod c a b cc d e s = Ok r -> (Y b < Y a)%R -> is_weight f -> no_short mu (fbShort r) -> clear_end (fbEnd r) ->
  exists a0 r0 l0 l1 l2 l3, fbTaper r = [r0; a0] /\ fbLip r = [l0; l1; l2; l3] /\ vyz l0 = vyz e /\ chain f (fbSplit r) a0 (vyz e) (walk f (fbSplit r)) /\
  bd f (fbMesh r) = - walk f (fbSplit r) - f (vyz e) l0 - walk f (fbLip r) - f l3 r0 - f r0 a0 - loop f (fbHole r).
Proof.
  intros H L W S CE. unfold floorBracket in H. match type of H with (if ?b then _ else _) = _ => destruct b eqn:C end.
  2:{ apply Rltb_false in C. unfold Y in L. cbn [vyz vy] in C. lra. }
  cbv zeta in H. grab H. apply Ok_inj in H. subst r. cbn [fbLip fbTaper fbSplit fbMesh fbHole fbShort fbEnd] in *.
  assert (W' : is_weight (fun x y => f (vmirY x) (vmirY y))) by (apply (weight_map f vmirY W); exact (keepsR vmirY)).
  destruct (floorFwd_bd _ _ _ _ _ _ _ _ _ Q W' S CE) as (a0 & r0 & E1 & E2 & E3 & E4).
  set (m := @V Rnum _ _ _) in *. set (e' := vmirY (vyz e)) in *. assert (EE : vmirY e' = vyz e) by (unfold e'; destruct e as [e1 e2 e3]; unfold vmirY, vyz; cbn [vx vy vz]; f_equal; cbn; ring).
  exists (vmirY a0), (vmirY r0). rewrite E2 in E4 |- *. eexists _, _, _, _. rewrite E1. split; [reflexivity|]. split; [reflexivity|]. split.
  { rewrite <- EE. unfold e', m. destruct e as [e1 e2 e3]; unfold vmirY, vyz, vadd; cbn [vx vy vz]; f_equal; cbn; ring. }
  rewrite <- EE. unfold emirY. split; [rewrite (walk_rev f _ W), walk_map; apply chain_rev; [exact W|apply chain_map; exact E3]|].
  cbn [bd]. rewrite E4, (loop_rev f _ W), (walk_rev f _ W), loop_map, !walk_map. cbn [walk]. lia.
Qed.
End Bracket.

(** ** the floor *)
Section Floor.
Variable q : @quality Rnum.
Variable taper : option R.
Variable pmod : R -> R -> R.
Variable c : @floor_cfg Rnum.
Implicit Types f : @weight Rnum.
Lemma on_split (p : pt) : X p = 0%R -> vyz p = p.
Proof. destruct p as [x y z]. unfold X, vyz. cbn [vx vy vz]. intros ->. reflexivity. Qed.
Lemma sketch_form bd' sk : floorSketch c bd' = Ok sk -> exists p0 p1 p2 p3 p4 p5 p6, sk = [p0; p1; p2; p3; p4; p5; p6] /\
  p3 = etranslated p2 (V 0 0 (fl_lipHeight c))%R.
Proof. intros H. unfold floorSketch in H. cbv zeta in H. grabs H. apply Ok_inj in H. subst sk. do 7 eexists. split; reflexivity. Qed.
Lemma runs_ends (l : list pt) a b : runs_back l -> pyidx l 0 = Ok a -> pyidx l (-1) = Ok b -> X a = 0%R /\ X b = 0%R /\ (Y a < Y b)%R /\ exists m, l = a :: m ++ [b].
Proof.
  intros (x & m & y & -> & H). rewrite pyidx_first, pyidx_last. change (x :: m ++ [y]) with ((x :: m) ++ [y]). rewrite rev_unit. intros A B. cbn [app] in A. injection A as <-. injection B as <-.
  split; [apply H|]. split; [apply H|]. split; [apply H|]. exists m. reflexivity.
Qed.
Lemma plan_hitch_bosses {N : Num} plc pf sd pn : newPlan plc pf sd = Ok pn -> match planHitch_ pn with Some h => made_boss (bossHitchL h) /\ made_boss (bossHitchR h) | None => True end.
Proof.
  intros H. unfold newPlan in H. do 3 grab H. grab H. destruct x2 as (y & w). do 4 grab H. destruct x5 as (((y' & ps) & tl) & pts). grab H.
  apply bind_ok in H. destruct H as (oh & HO & H). apply Ok_inj in H. subst pn. cbn [planHitch_].
  destruct (palm plc) as [hc|]; [|apply Ok_inj in HO; subst oh; exact I]. grab HO. apply Ok_inj in HO. subst oh. apply (hitch_bosses plc hc pts). assumption.
Qed.
(* the faces and strips of the wall profile, with a split edge of weight v and an inner edge of weight i *)
Lemma walls_part f p0 p1 p2 p3 p4 p5 p6 a0 a1 a2 a3 a4 a5 a6 b0 b1 b2 b3 b4 b5 b6 : is_weight f ->
  chain f p0 a0 b0 (walk f p0) -> chain f p1 a1 b1 (walk f p1) -> chain f p2 a2 b2 (walk f p2) -> chain f p3 a3 b3 (walk f p3) -> chain f p4 a4 b4 (walk f p4) ->
  chain f p5 a5 b5 (walk f p5) -> chain f p6 a6 b6 (walk f p6) -> vyz a2 = a2 -> vyz b2 = b2 -> no_short mu (p3 ++ rev p4) ->
  bd f (Strip p0 p1 false) + bd f (Strip (vyz a2 :: p2 ++ [vyz b2]) (vyz a3 :: p3 ++ [vyz b3]) false) + bd f (Strip p4 p5 false) + bd f (Strip p5 p6 false) +
  loop f (p1 ++ rev p2) + loop f (collapsed (p3 ++ rev p4) mu) - walk f p0 =
  - walk f p6 - walk f [a0; a1; a2; vyz a3; a3; a4; a5; a6] + walk f [b0; b1; b2; vyz b3; b3; b4; b5; b6].
Proof.
  intros W C0 C1 C2 C3 C4 C5 C6 E2 F2 S. rewrite (collapsed_loop f mu _ W S), E2, F2.
  rewrite (chain_strip f _ _ _ _ _ _ _ _ C0 C1), (chain_strip f _ _ _ _ _ _ _ _ C4 C5), (chain_strip f _ _ _ _ _ _ _ _ C5 C6).
  eassert (D2 : chain f (a2 :: p2 ++ [b2]) _ _ _) by chain. eassert (D3 : chain f (vyz a3 :: p3 ++ [vyz b3]) _ _ _) by chain. rewrite (chain_strip f _ _ _ _ _ _ _ _ D2 D3).
  eassert (D4 : chain f (p1 ++ rev p2) _ _ _) by chain. eassert (D5 : chain f (p3 ++ rev p4) _ _ _) by chain. rewrite (chain_loop _ _ _ _ _ D4), (chain_loop _ _ _ _ _ D5).
  rewrite (weight_diag f a2 W), (weight_diag f b2 W). generalize (vyz a3) (vyz b3). intros u v. generalize (walk f p0) (walk f p1) (walk f p2) (walk f p3) (walk f p4) (walk f p5) (walk f p6). intros. cbn [walk].
  clear - W. steps f W. lia.
Qed.
Lemma runs_chain f (l : list (@vec Rnum)) : runs_back l -> exists (a : @vec Rnum) m (b : @vec Rnum), l = a :: m ++ [b] /\ (X a = 0 /\ X b = 0 /\ Y a < Y b)%R /\ pyidx l 0 = Ok a /\ pyidx l (-1) = Ok b /\ chain f l a b (walk f l).
Proof.
  intros (a & m & b & E & H). exists a, m, b. split; [exact E|]. split; [exact H|]. subst l. split; [reflexivity|]. split; [|apply ends_chain].
  rewrite pyidx_last. change (a :: m ++ [b]) with ((a :: m) ++ [b]). rewrite rev_unit. reflexivity.
Qed.
Lemma pyidx4 {A} (a b d e : A) : pyidx [a; b; d; e] (-1) = Ok e /\ pyidx [a; b; d; e] (-2) = Ok d /\ pyidx [a; b; d; e] (-3) = Ok b /\ pyidx [a; b; d; e] (-4) = Ok a.
Proof. repeat split. Qed.
Theorem floor_bd fuel plc pfuel sd pn bd' fl f : newPlan plc pfuel sd = Ok pn -> newFloor q taper pmod c fuel pn bd' = Ok fl -> Forall (no_short mu) (flShort fl) -> Forall clear_end (flEnds fl) ->
  Forall runs_back (flProfile fl) -> is_weight f -> bd f (flMesh fl) = 0.
Proof.
  intros HP H S CE RB W. unfold newFloor in H. apply bind_ok in H; destruct H as (sk & Hsk & H). apply bind_ok in H; destruct H as (fo & Hfo & H).
  apply bind_ok in H; destruct H as (hx & Hhx & H). apply bind_ok in H; destruct H as (bu & Hbu & H). destruct hx as ((hexI & hexO) & hexM), bu as (((bh & bs) & bf) & bm). cbv zeta in H.
  match type of H with context[map bHead ?l] => set (bosses := l) in * end.
  assert (MB : Forall made_boss bosses).
  { destruct (plan_bosses _ _ _ _ HP) as (B1 & B2 & B3 & B4). unfold bosses. apply Forall_app. split; [repeat constructor; assumption|].
    pose proof (plan_hitch_bosses _ _ _ _ HP) as HH. destruct (planHitch_ pn); [|constructor]. destruct HH. repeat constructor; assumption. }
  pose proof (hex_part _ _ _ _ _ _ _ f Hhx W) as BX. pose proof (heads_part bosses f MB W) as BB. clearbody bosses.
  apply bind_ok in H; destruct H as (a2' & A2 & H). apply bind_ok in H; destruct H as (b2' & B2 & H). apply bind_ok in H; destruct H as (a3' & A3 & H). apply bind_ok in H; destruct H as (b3' & B3 & H).
  apply Ok_inj in H. subst fl. cbn [flMesh flShort flEnds flProfile] in *.
  destruct (sketch_form _ _ Hsk) as (p0 & p1 & p2 & p3 & p4 & p5 & p6 & -> & T3). unfold floorBrackets in Hfo.
  pose proof (Forall_inv S) as S1. apply Forall_inv_tail in S. pose proof (Forall_inv S) as S2. apply Forall_inv_tail in S.
  destruct (runs_chain f p0 (Forall_inv RB)) as (a0 & m0 & b0 & E0 & R0 & I0 & J0 & C0). apply Forall_inv_tail in RB.
  destruct (runs_chain f p1 (Forall_inv RB)) as (a1 & m1 & b1 & E1 & R1 & I1 & J1 & C1). apply Forall_inv_tail in RB.
  destruct (runs_chain f p2 (Forall_inv RB)) as (a2 & m2 & b2 & E2 & R2 & I2 & J2 & C2). apply Forall_inv_tail in RB.
  destruct (runs_chain f p3 (Forall_inv RB)) as (a3 & m3 & b3 & E3 & R3 & I3 & J3 & C3). apply Forall_inv_tail in RB.
  destruct (runs_chain f p4 (Forall_inv RB)) as (a4 & m4 & b4 & E4 & R4 & I4 & J4 & C4). apply Forall_inv_tail in RB.
  destruct (runs_chain f p5 (Forall_inv RB)) as (a5 & m5 & b5 & E5 & R5 & I5 & J5 & C5). apply Forall_inv_tail in RB.
  destruct (runs_chain f p6 (Forall_inv RB)) as (a6 & m6 & b6 & E6 & R6 & I6 & J6 & C6). clear RB.
  assert (P2 : vyz a2 = a2) by (apply on_split; apply R2). assert (P2' : vyz b2 = b2) by (apply on_split; apply R2).
  assert (C0' : chain f (rev p0) b0 a0 (- walk f p0)) by (apply chain_rev; assumption).
  rewrite meshes_app. rewrite meshes_app. cbn [meshes bd]. repeat change (open_strip f ?a ?b) with (bd f (Strip a b false)).
  rewrite !loops_app. rewrite (collapsed_loop f mu _ W S1).
  destruct (fl_bracket c) as [bc|].
  - rewrite I6, J6, I5, I4, I3 in Hfo. cbn [bind] in Hfo. apply bind_ok in Hfo; destruct Hfo as (bF & HF & Hfo). rewrite J5, J4, J3 in Hfo. cbn [bind] in Hfo.
    apply bind_ok in Hfo; destruct Hfo as (bB & HB & Hfo). do 3 grab Hfo. clear Q Q0 Q1.
    (* the recorded edges and ends *)
    assert (SS : foShort fo = [fbShort bF; fbShort bB] /\ foEnds fo = [fbEnd bF; fbEnd bB]) by (clear - Hfo; grabs Hfo; apply Ok_inj in Hfo; subst fo; split; reflexivity).
    destruct SS as (SS & SE). rewrite SS in S. rewrite SE in CE. clear SS SE.
    pose proof (Forall_inv S) as SF. pose proof (Forall_inv (Forall_inv_tail S)) as SB. pose proof (Forall_inv CE) as EF. pose proof (Forall_inv (Forall_inv_tail CE)) as EB. clear S CE.
    destruct (bracketFront_bd q taper pmod bc _ _ _ _ _ _ _ f HF (proj2 (proj2 R6)) W SF EF) as (s0 & t0 & l0 & l1 & l2 & l3 & TF & LF & ZF & CF & BF).
    destruct (bracketBack_bd q taper pmod bc _ _ _ _ _ _ _ f HB (proj2 (proj2 R6)) W SB EB) as (s1 & t1 & k0 & k1 & k2 & k3 & TB & LB & ZB & CB & BK).
    clear HF HB. rewrite LF, LB in Hfo. destruct (pyidx4 l0 l1 l2 l3) as (X1 & X2 & X3 & X4). destruct (pyidx4 k0 k1 k2 k3) as (Y1 & Y2 & Y3 & Y4).
    rewrite X1, Y1, X2, Y2, X3, Y3, X4, Y4 in Hfo. clear X1 X2 X3 X4 Y1 Y2 Y3 Y4. cbn [bind] in Hfo.
    rewrite E3, E4, E5, E6 in Hfo. rewrite !setEnds_form in Hfo. cbn [bind mapM] in Hfo. rewrite I0, I1, I2 in Hfo. cbn [bind] in Hfo. rewrite J0, J1, J2 in Hfo. cbn [bind] in Hfo. rewrite TB, TF in Hfo.
    apply Ok_inj in Hfo. subst fo.
    cbn [f0 f1 f2 f3 f4 f5 f6 foSplit foInner foHoles foMesh] in *. rewrite I2 in A2. rewrite J2 in B2. okinv A2. okinv B2.
    assert (a3' = l0) as -> by (apply Ok_inj; rewrite <- A3; reflexivity).
    assert (b3' = k0) as -> by (apply Ok_inj; rewrite <- B3; rewrite pyidx_last; change (l0 :: m3 ++ [k0]) with ((l0 :: m3) ++ [k0]); rewrite rev_unit; reflexivity).
    pose proof (walls_part f p0 p1 p2 (l0 :: m3 ++ [k0]) (l1 :: m4 ++ [k1]) (l2 :: m5 ++ [k2]) (l3 :: m6 ++ [k3]) _ _ _ _ _ _ _ _ _ _ _ _ _ _ W C0 C1 C2
      (ends_chain _ _ _ _) (ends_chain _ _ _ _) (ends_chain _ _ _ _) (ends_chain _ _ _ _) P2 P2' S2) as BW.
    eassert (CS : chain f ([a0; a1; a2] ++ fbSplit bF ++ fbSplit bB ++ [b2; b1; b0]) _ _ _) by chain.
    pose proof (bumpers_part _ _ _ _ _ _ _ _ f _ _ _ _ _ _ Hbu W C0' CS) as BM.
    eassert (CI : chain f (([t1; s1] ++ [s0; t0]) ++ l3 :: m6 ++ [k3]) _ _ _) by (eapply chain_app; [chain|apply ends_chain]).
    cbn [bd]. rewrite (chain_loop _ _ _ _ _ CI), BF, BK, LF, LB, ZF, ZB. rewrite ZF, ZB in BW. cbn [bd] in BW. change (loops f [fbHole bF; fbHole bB]) with (loop f (fbHole bF) + (loop f (fbHole bB) + 0)). change (loops f []) with 0.
    generalize dependent (walk f (l3 :: m6 ++ [k3])). intros w6. intros. cbn [walk] in *. clear - W BX BB BW BM.
    revert BX BB BW BM. rewrite <- !app_assoc.
    repeat match goal with |- context[open_strip f ?a ?b] => generalize (open_strip f a b) end. intros.
    revert BX BB BW BM. repeat match goal with |- context[loop f ?a] => generalize (loop f a) end. intros. revert BX BB BW BM. steps f W. lia.
  - cbn [mapM bind] in Hfo. rewrite I0, I1, I2, I3, I4, I5, I6 in Hfo. cbn [bind] in Hfo. rewrite J0, J1, J2, J3, J4, J5, J6 in Hfo. cbn [bind] in Hfo. apply Ok_inj in Hfo. subst fo.
    cbn [f0 f1 f2 f3 f4 f5 f6 foSplit foInner foHoles foMesh] in *. rewrite I2 in A2. rewrite J2 in B2. rewrite I3 in A3. rewrite J3 in B3. okinv A2. okinv B2. okinv A3. okinv B3.
    pose proof (walls_part f p0 p1 p2 p3 p4 p5 p6 _ _ _ _ _ _ _ _ _ _ _ _ _ _ W C0 C1 C2 C3 C4 C5 C6 P2 P2' S2) as BW.
    eassert (CS : chain f ([a0; a1; a2; a3; a4; a5; a6] ++ [b6; b5; b4; b3; b2; b1; b0]) _ _ _) by chain.
    pose proof (bumpers_part _ _ _ _ _ _ _ _ f _ _ _ _ _ _ Hbu W C0' CS) as BM.
    rewrite (on_split a3) in * by apply R3. rewrite (on_split b3) in * by apply R3. unfold loops in *. cbn [app bd fold_right] in *. rewrite (chain_loop _ _ _ _ _ C6). cbn [walk] in *.
    pose proof (weight_diag f a3 W) as D3. pose proof (weight_diag f b3 W) as D3'. clear - W BX BB BW BM D3 D3'.
    revert BX BB BW BM D3 D3'. 
    repeat match goal with |- context[open_strip f ?a ?b] => generalize (open_strip f a b) end. repeat match goal with |- context[loop f ?a] => generalize (loop f a) end. intros. revert BX BB BW BM D3 D3'. steps f W. lia.
Qed.
End Floor.
