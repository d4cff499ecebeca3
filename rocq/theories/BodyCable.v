(** The boundary of the cable exit. *)
From Coq Require Import Reals Lra.
From Coq Require Import ZArith List Bool Lia Arith.
From Verif Require Import Num GeoModel EdgeModel EdgeSpec EdgeMesh ArcModel MeshModel MeshSpec MeshProof LayoutModel LayoutProof BracketModel BumperModel
  PartSpec ChainProof PartProof PalmProof PlanMove GeoSpec GeoMat GeoRigid GeoPlane GeoFig ArcSpec ArcProof P_Arc BodyChain BodyKeys BodyParts BodyFlat BodyReal BodyHole.
Import ListNotations.
Open Scope Z_scope.

Lemma Forall2_rev' {A B} (R : A -> B -> Prop) l m : Forall2 R l m -> Forall2 R (rev l) (rev m).
Proof. induction 1 as [|a b l m H F IH]; [constructor|]. cbn [rev]. apply Forall2_app; [exact IH|]. constructor; [exact H|constructor]. Qed.
Section Strips.
Context {N : Num}.
Implicit Types f : @weight N.
Lemma ends_of f (l : list vec) a b : pyidx l 0 = Ok a -> pyidx l (-1) = Ok b -> chain f l a b (walk f l).
Proof. apply chain_self. Qed.
Lemma strips_bd f ls : forall hs es, ls <> [] -> Forall2 (fun e h => pyidx e 0 = Ok h) ls hs -> Forall2 (fun e h => pyidx e (-1) = Ok h) ls es ->
  bd f (meshes (stripChain (fun a b => Strip a b false) ls)) = walk f (hd [] ls) - walk f (last ls []) + walk f es - walk f hs.
Proof.
  induction ls as [|a ls IH]; intros hs es NE FH FE; [contradiction|].
  inversion FH as [|? h ? hs' H0 FH']; subst. inversion FE as [|? e ? es' E0 FE']; subst. destruct ls as [|b ls].
  - inversion FH'; inversion FE'; subst. cbn [stripChain meshes bd hd last walk]. lia.
  - specialize (IH hs' es' ltac:(discriminate) FH' FE'). inversion FH' as [|? h' ? hs2 H1 FH2]; subst. inversion FE' as [|? e' ? es2 E1 FE2]; subst.
    change (stripChain (fun a b => Strip a b false) (a :: b :: ls)) with (Strip a b false :: stripChain (fun a b => Strip a b false) (b :: ls)). cbn [meshes].
    change (bd f (Plus ?x ?y)) with (bd f x + bd f y). rewrite IH. 
    rewrite (chain_strip f _ _ _ _ _ _ _ _ (chain_self f _ _ _ H0 E0) (chain_self f _ _ _ H1 E1)).
    change (last (a :: b :: ls) []) with (last (b :: ls) []). cbn [hd]. change (walk f (e :: e' :: es2)) with (f e e' + walk f (e' :: es2)).
    change (walk f (h :: h' :: hs2)) with (f h h' + walk f (h' :: hs2)). lia.
Qed.
Lemma strips_bd' f ls : forall hs es, is_weight f -> ls <> [] -> Forall2 (fun e h => pyidx e 0 = Ok h) ls hs -> Forall2 (fun e h => pyidx e (-1) = Ok h) ls es ->
  bd f (meshes (stripChain (fun a b => Strip b a false) ls)) = walk f (last ls []) - walk f (hd [] ls) - walk f es + walk f hs.
Proof.
  intros hs es W. revert hs es. induction ls as [|a ls IH]; intros hs es NE FH FE; [contradiction|].
  inversion FH as [|? h ? hs' H0 FH']; subst. inversion FE as [|? e ? es' E0 FE']; subst. destruct ls as [|b ls].
  - inversion FH'; inversion FE'; subst. cbn [stripChain meshes bd hd last walk]. lia.
  - specialize (IH hs' es' ltac:(discriminate) FH' FE'). inversion FH' as [|? h' ? hs2 H1 FH2]; subst. inversion FE' as [|? e' ? es2 E1 FE2]; subst.
    change (stripChain (fun a b => Strip b a false) (a :: b :: ls)) with (Strip b a false :: stripChain (fun a b => Strip b a false) (b :: ls)). cbn [meshes].
    change (bd f (Plus ?x ?y)) with (bd f x + bd f y). rewrite IH. 
    rewrite (chain_strip f _ _ _ _ _ _ _ _ (chain_self f _ _ _ H1 E1) (chain_self f _ _ _ H0 E0)).
    change (last (a :: b :: ls) []) with (last (b :: ls) []). cbn [hd]. change (walk f (e :: e' :: es2)) with (f e e' + walk f (e' :: es2)).
    change (walk f (h :: h' :: hs2)) with (f h h' + walk f (h' :: hs2)). pose proof (proj1 W e' e). pose proof (proj1 W h' h). lia.
Qed.
(* a list cut at one of its points *)
Lemma cut_chain f (l : list vec) n a b : (n < length l)%nat -> pyidx l 0 = Ok a -> pyidx l (-1) = Ok b ->
  exists m, chain f (firstn (n + 1) l) a m (walk f (firstn (n + 1) l)) /\ chain f (skipn n l) m b (walk f (skipn n l)) /\
    walk f l = walk f (firstn (n + 1) l) + walk f (skipn n l).
Proof.
  intros L A B. pose proof (chain_self f _ _ _ A B) as C.
  destruct (skipn n l) as [|m r] eqn:E. { apply (f_equal (@length _)) in E. rewrite skipn_length in E. cbn in E. lia. }
  assert (F : firstn (n + 1) l = firstn n l ++ [m]).
  { rewrite <- (firstn_skipn n l) at 1. rewrite firstn_app, E. rewrite firstn_length_le by lia. replace (n + 1 - n)%nat with 1%nat by lia.
    rewrite firstn_all2 by (rewrite firstn_length; lia). reflexivity. }
  assert (EL : l = firstn n l ++ m :: r) by (rewrite <- E; symmetry; apply firstn_skipn).
  exists m. destruct C as (_ & HA & HB & _). rewrite F. split; [|split].
  - split; [destruct (firstn n l); discriminate|]. split; [|split; [apply last_last|reflexivity]].
    rewrite EL in HA. destruct (firstn n l); exact HA.
  - split; [discriminate|]. split; [reflexivity|]. split; [|reflexivity]. rewrite EL in HB.
    assert (G : forall k : list vec, last (k ++ m :: r) vzero = last (m :: r) vzero).
    { clear. induction k as [|x k IH]; [reflexivity|]. cbn [app]. rewrite <- IH. destruct (k ++ m :: r) eqn:Q; [destruct k; discriminate|]. reflexivity. }
    rewrite G in HB. exact HB.
  - rewrite EL at 1. destruct (firstn n l) as [|x k]; [cbn [app walk]; lia|]. cbn [app]. rewrite walk_gap. reflexivity.
Qed.
End Strips.

Section Cable.
Variables (h amax : R) (taper : option R).
Notation q := (@mkQuality Rnum h amax).
Implicit Types f : @weight Rnum.
(* all arcs of the hole are the images of one half hole: they start and end on the split plane *)
Lemma holeArcs_flat c pos w first rest : (0 < h)%R -> (0 < amax)%R -> cableHoleArcs q taper c pos w = Ok (first, rest) -> flat pos ->
  first <> [] /\ forall l, In l (first :: rest) -> (forall p, pyidx l 0 = Ok p -> flat p) /\ (forall p, pyidx l (-1) = Ok p -> flat p).
Proof.
  intros Hh Ha H Fp. unfold cableHoleArcs in H. cbv zeta in H. apply bind_ok in H; destruct H as (fa & _ & H).
  apply bind_ok in H; destruct H as (hole & Hhole & H). apply bind_ok in H; destruct H as (rs & Hrs & H). apply Ok_inj in H. apply pair_inj in H. destruct H as (<- & <-).
  pose proof (half_axis _ _ _ _ _ Hh Ha Hhole) as OA. split.
  { unfold etranslated. destruct OA as (NE & _). destruct hole; [contradiction|discriminate]. }
  intros l [<-|I].
  - unfold etranslated. rewrite map_map. assert (T : forall v : pt, Y v = 0%R -> flat (vadd (V (vy v) (nZ 0) (vx v)) (vadd pos (V (nZ 0) (nZ 0) (- ndiv (ca_diameter c) (nZ 2))%num)))).
    { intros v Hv. apply flat_add; [exact Hv|fl]. }
    split; intros p E; [exact (first_flat _ _ _ OA T E)|exact (last_flat _ _ _ OA T E)].
  - apply mapM_ok in Hrs. assert (J : exists p s, l = etranslated (escaled (map (fun p : pt => V (vy p) (nZ 0) (vx p)) hole) (nZ 1 + s)%num vzero)
        (vadd (vadd pos (V (nZ 0) (w - ca_exitFillet c)%num (- ndiv (ca_diameter c) (nZ 2))%num)) (V (nZ 0) (vy p) (nZ 0)))).
    { clear - I Hrs. induction Hrs as [|a b la lb E F IH]; [destruct I|]. destruct I as [<-|I]; [|exact (IH I)].
      apply bind_ok in E; destruct E as (s & _ & E). apply Ok_inj in E. exists a, s. symmetry. exact E. }
    destruct J as (p & s & ->). unfold etranslated, escaled. rewrite !map_map. set (mv := vadd (vadd pos _) _). assert (Fm : flat mv) by (unfold mv; fl). clearbody mv.
    assert (T : forall v : pt, Y v = 0%R -> flat (vadd (vadd (vscale (vsub (V (vy v) (nZ 0) (vx v)) vzero) (nZ 1 + s)%num) vzero) mv)).
    { intros v Hv. apply flat_add; [|exact Fm]. destruct v as [v1 v2 v3]. unfold Y in Hv. cbn [vy] in Hv. subst v2. unfold flat, X. alg. ring. }
    split; intros u E; [exact (first_flat _ _ _ OA T E)|exact (last_flat _ _ _ OA T E)].
Qed.
Lemma cable_bd b c pos w k f : (0 < h)%R -> (0 < amax)%R -> newCable q taper b c pos w = Ok k -> flat pos -> is_weight f ->
  bd f (cbMeshC k) = - walk f (caWallF k) - walk f (caWallB k) - walk f (caSplitT k) - walk f (caShort k) /\
  caSplitG k = collapsed (caShort k) mu /\ flats (caSplitT k) /\
  exists a z y x, chain f (caWallF k) a z (walk f (caWallF k)) /\ chain f (caWallB k) y x (walk f (caWallB k)) /\
    chain f (caSplitT k) x a (walk f (caSplitT k)) /\ chain f (caShort k) z y (walk f (caShort k)).
Proof.
  intros Hh Ha H Fp W. unfold newCable in H. cbv zeta in H.
  apply bind_ok in H; destruct H as ((first & rest) & Hfr & H). destruct (holeArcs_flat _ _ _ _ _ Hh Ha Hfr Fp) as (NF & FL). clear Hfr.
  apply bind_ok in H; destruct H as (diag & _ & H). apply bind_ok in H; destruct H as (bend1 & _ & H). apply bind_ok in H; destruct H as (bend2 & _ & H).
  apply bind_ok in H; destruct H as (fe & Afe & H). apply bind_ok in H; destruct H as (b0 & Ab0 & H).
  set (bend0 := map _ (bend1 ++ skipn 1 bend2)) in *. set (bend := etranslated bend0 (vsub fe b0)) in *. clearbody bend.
  apply bind_ok in H; destruct H as (tf & _ & H). apply bind_ok in H; destruct H as (tx & _ & H). apply bind_ok in H; destruct H as (te & _ & H).
  set (tarc := map _ (tx ++ _)) in *. clearbody tarc.
  apply bind_ok in H; destruct H as (b1 & Ab1 & H).
  set (n := Nat.div (length first) 2) in *.
  set (heG := rev (skipn n first)) in *.
  set (gs := map (fun p => etranslated bend (vsub p b1)) heG) in *.
  apply bind_ok in H; destruct H as (ge & Age & H). apply bind_ok in H; destruct H as (gee & Agee & H).
  set (la := etranslated ge _) in *.
  apply bind_ok in H; destruct H as (g0 & Ag0 & H). apply bind_ok in H; destruct H as (g0e & Ag0e & H). apply bind_ok in H; destruct H as (t0 & At0 & H).
  set (TL := etranslated tarc (vsub g0e t0)) in *. set (TR := etranslated TL _) in *.
  apply bind_ok in H; destruct H as (bB & HbB & H). apply bind_ok in H; destruct H as (u0 & Au0 & H). apply bind_ok in H; destruct H as (ue & Aue & H).
  apply bind_ok in H; destruct H as (tle & Atle & H). apply bind_ok in H; destruct H as (sT & HsT & H). apply bind_ok in H; destruct H as (en & Hen & H).
  apply Ok_inj in H. subst k. cbn [cbMeshC caWallF caWallB caSplitG caSplitT caShort].
  (* the arcs of the hole *)
  apply mapM_ok in HsT, Hen. apply Forall2_rev' in HsT. rewrite rev_involutive in HsT.
  assert (NN : first :: rest <> []) by discriminate.
  pose proof (strips_bd' f (first :: rest) (rev sT) en W NN HsT Hen) as BH.
  change (hd [] (first :: rest)) with first in BH.
  assert (FsT : flats sT).
  { rewrite <- (rev_involutive sT). apply flats_rev. clear - HsT FL. revert FL. generalize (first :: rest), (rev sT), HsT. clear. intros ls hs F. induction F as [|l p ls hs E F IH]; intros FL; [constructor|].
    constructor; [exact (proj1 (FL l (or_introl eq_refl)) p E)|]. apply IH. intros m I. exact (FL m (or_intror I)). }
  (* first and last points *)
  assert (C1 : exists a0, pyidx first 0 = Ok a0 /\ rev sT = a0 :: tl (rev sT)). { inversion HsT as [|? a0 ? hs E F]; subst. exists a0. split; [exact E|reflexivity]. }
  destruct C1 as (a0 & Aa0 & EsT).
  assert (C2 : en = fe :: tl en). { inversion Hen as [|? e0 ? es E F]; subst. cbn [tl]. f_equal. congruence. }
  assert (C3 : exists y x, chain f (last (first :: rest) []) x y (walk f (last (first :: rest) [])) /\ last (rev sT) vzero = x /\ last en vzero = y).
  { clear - HsT Hen NN. revert HsT Hen NN. generalize (first :: rest), (rev sT), en. intros ls hs es F G NE. 
    destruct (exists_last NE) as (r & l & ->). rewrite last_last. 
    apply Forall2_app_inv_l in F, G. destruct F as (h1 & h2 & _ & F & ->), G as (e1 & e2 & _ & G & ->).
    inversion F as [|? x ? ? E F']; subst. inversion F'; subst. inversion G as [|? y ? ? E' G']; subst. inversion G'; subst. rewrite !last_last. exists y, x.
    split; [exact (chain_self f _ _ _ E E')|]. split; reflexivity. }
  destruct C3 as (y & x & Cl & Lx & Ly).
  assert (CsT : chain f (rev sT) a0 x (walk f (rev sT))) by (split; [rewrite EsT; discriminate|]; split; [rewrite EsT; reflexivity|]; split; [exact Lx|reflexivity]).
  assert (Cen : chain f en fe y (walk f en)) by (split; [rewrite C2; discriminate|]; split; [rewrite C2; reflexivity|]; split; [exact Ly|reflexivity]).
  clear EsT C2 Lx Ly HsT Hen.
  (* the hole edge cut in two *)
  assert (LN : (n < length first)%nat). { unfold n. destruct first as [|p l]; [contradiction|]. apply Nat.div_lt; cbn [length]; lia. }
  destruct (cut_chain f first n a0 fe LN Aa0 Afe) as (m & Cm1 & Cm2 & Wm).
  pose proof (chain_rev f _ _ _ _ W Cm2) as CG. fold heG in CG.
  (* the groove *)
  assert (HG : forall p, pyidx (etranslated bend (vsub p b1)) 0 = Ok p).
  { intros p. unfold etranslated. rewrite (pyidx_map (fun a => vadd a (vsub p b1)) _ _ _ Ab1), back_again. reflexivity. }
  assert (NG : heG <> []) by apply CG.
  assert (FH : Forall2 (fun e p => pyidx e 0 = Ok p) gs heG).
  { unfold gs. clear - HG. induction heG as [|p l IH]; [constructor|]. constructor; [apply HG|exact IH]. }
  assert (Ege : exists l2, rev gs = ge :: l2 /\ pyidx ge 0 = Ok m).
  { rewrite pyidx_last in Age. pose proof (Forall2_rev' _ _ _ FH) as FR. destruct (rev gs) as [|g l2]; [discriminate|]. apply Ok_inj in Age. subst g. exists l2. split; [reflexivity|].
    inversion FR as [|? p ? ? E F EQ1 EQ2]; subst. replace m with p; [exact E|].
    destruct CG as (_ & _ & L & _). rewrite <- (rev_involutive heG), <- EQ2 in L. cbn [rev] in L. rewrite last_last in L. exact L. }
  destruct Ege as (l2 & Ege & Age0).
  set (sh := V _ _ _) in la. 
  assert (Ala0 : pyidx la 0 = Ok (vadd m sh)) by exact (pyidx_map (fun p => vadd p sh) _ _ _ Age0).
  assert (Alae : pyidx la (-1) = Ok (vadd gee sh)) by exact (pyidx_map (fun p => vadd p sh) _ _ _ Agee).
  set (la0 := vadd m sh) in *. set (lae := vadd gee sh) in *.
  assert (FH' : Forall2 (fun e p => pyidx e 0 = Ok p) (gs ++ [la]) (heG ++ [la0])) by (apply Forall2_app; [exact FH|constructor; [exact Ala0|constructor]]).
  apply mapM_ok in HbB. apply Forall2_rev' in HbB. rewrite rev_involutive in HbB.
  assert (NGS : gs ++ [la] <> []) by (destruct gs; discriminate).
  pose proof (strips_bd f (gs ++ [la]) (heG ++ [la0]) (rev bB) NGS FH' HbB) as BG. rewrite last_last in BG.
  assert (Eg0 : hd [] (gs ++ [la]) = g0). { rewrite pyidx_first in Ag0. destruct (gs ++ [la]); [discriminate|]. cbn. congruence. }
  rewrite Eg0 in BG.
  assert (Ag00 : pyidx g0 0 = Ok fe).
  { unfold gs in Ag0. destruct CG as (_ & HD & _). destruct heG as [|p l]; [contradiction|]. cbn [hd] in HD. subst p. cbn [map app] in Ag0. rewrite pyidx_first in Ag0.
    apply Ok_inj in Ag0. subst g0. apply HG. }
  assert (CbB : chain f (rev bB) g0e lae (walk f (rev bB))).
  { split; [destruct HbB; [contradiction|discriminate]|]. split.
    - destruct HbB as [|g p ls ps E F]; [contradiction|]. cbn [hd] in *. subst g. congruence.
    - split; [|reflexivity]. apply Forall2_app_inv_l in HbB. destruct HbB as (e1 & e2 & _ & G & ->). inversion G as [|? v ? ? E G']; subst. inversion G'; subst.
      rewrite last_last. congruence. }
  pose proof (chain_rev f _ _ _ _ W CbB) as CbB'. rewrite rev_involutive in CbB'.
  assert (WbB : walk f bB = - walk f (rev bB)) by apply CbB'.
  (* the tapered end *)
  assert (ATL0 : pyidx TL 0 = Ok g0e). { unfold TL, etranslated. rewrite (pyidx_map (fun a => vadd a (vsub g0e t0)) _ _ _ At0), back_again. reflexivity. }
  pose proof (chain_self f _ _ _ ATL0 Atle) as CTL. pose proof (chain_self f _ _ _ Ag00 Ag0e) as Cg0. pose proof (chain_self f _ _ _ Ala0 Alae) as Cla.
  match type of TR with _ => set (bw := V _ _ _) in TR end.
  pose proof (pyidx_map (fun p => vadd p bw) _ _ _ ATL0) as ATR0. pose proof (pyidx_map (fun p => vadd p bw) _ _ _ Atle) as ATRe.
  change (map (fun p => vadd p bw) TL) with TR in ATR0, ATRe. set (tr0 := vadd g0e bw) in *. set (tre := vadd tle bw) in *.
  pose proof (chain_self f _ _ _ ATR0 ATRe) as CTR.
  assert (CBE : chain f (la ++ TR) la0 tre (walk f la + f lae tr0 + walk f TR)) by chain.
  assert (Eu0 : u0 = la0) by (pose proof (chain_self f _ _ _ Au0 Aue) as (_ & Q & _); destruct CBE as (_ & Q' & _); congruence).
  assert (Eue : ue = tre) by (pose proof (chain_self f _ _ _ Au0 Aue) as (_ & _ & Q & _); destruct CBE as (_ & _ & Q' & _); congruence). subst u0 ue.
  assert (F1 : firstn 1 TR = [tr0]) by (rewrite pyidx_first in ATR0; destruct TR; [discriminate|]; cbn; congruence).
  assert (F2 : firstn 1 (la ++ TR) = [la0]) by (rewrite pyidx_first in Au0; destruct (la ++ TR); [discriminate|]; cbn; congruence).
  rewrite F1, F2.
  assert (Cwf : chain f (firstn (n + 1) first ++ [la0; tre; tle]) a0 tle (walk f (firstn (n + 1) first) + f m la0 + (f la0 tre + (f tre tle + 0)))) by chain.
  assert (Cwb : chain f (rev (last (first :: rest) [])) y x (- walk f (last (first :: rest) []))) by chain.
  pose proof (chain_rev f _ _ _ _ W CsT) as CsT'. rewrite rev_involutive in CsT'.
  assert (Csh : chain f (rev TL ++ rev g0 ++ en) tle y (- walk f TL + f g0e g0e + (- walk f g0 + f fe fe + walk f en))) by chain.
  rewrite (chain_walk _ _ _ _ _ Cwf), (chain_walk _ _ _ _ _ Cwb), (chain_walk _ _ _ _ _ Csh), (chain_walk _ _ _ _ _ CsT').
  split; [|split; [reflexivity|split; [exact FsT|exists a0, tle, y, x; split; [exact Cwf|split; [exact Cwb|split; [exact CsT'|exact Csh]]]]]].
  rewrite meshes_app. cbn [meshes]. repeat change (bd f (Plus ?a ?b)) with (bd f a + bd f b). rewrite BH, BG.
  rewrite (chain_strip f _ _ _ _ _ _ _ _ CTL CTR), (chain_strip f _ _ _ _ _ _ _ _ CbB' (chain_one f tr0)), (chain_strip f _ _ _ _ _ _ _ _ CBE (chain_one f la0)).
  assert (CHG : chain f (heG ++ [la0]) fe la0 (- walk f (skipn n first) + f m la0 + 0)) by chain.
  rewrite (chain_walk _ _ _ _ _ CHG), !(weight_diag f _ W). change (bd f MEmpty) with 0. rewrite Wm.
  set (w1 := walk f (last _ [])). set (w2 := walk f (rev sT)). set (w3 := walk f en). set (w4 := walk f g0). set (w5 := walk f la). set (w6 := walk f (rev bB)). set (w7 := walk f TL). set (w8 := walk f TR).
  set (w9 := walk f (firstn (n + 1) first)). set (w10 := walk f (skipn n first)). clearbody w1 w2 w3 w4 w5 w6 w7 w8 w9 w10. clear - W. steps f W. lia.
Qed.
End Cable.
