(** The boundary of a key hole: its two rims on the roof planes. *)
From Coq Require Import Reals Lra.
From Coq Require Import ZArith List Bool Lia Arith.
From Verif Require Import Num GeoModel EdgeModel EdgeSpec EdgeMesh ArcModel MeshModel MeshSpec MeshProof KeyModel LayoutModel LayoutProof PartSpec ChainProof PartProof
  GeoSpec GeoMat GeoPlane GeoFig BodyChain.
Import ListNotations.
Open Scope Z_scope.

Section Base.
Context {N : Num}.
Variable c : @key_cfg N.
Implicit Types f : @weight N.
Lemma withMirY_chain f x y : chain f (withMirY [x; y]) x (vmirY x) (walk f (withMirY [x; y])).
Proof. split; [discriminate|]. split; [reflexivity|]. split; reflexivity. Qed.
(* left side and back of the hole *)
Lemma base_bd be f : backMesh c = Ok be -> is_weight f ->
  let e0 := hd vzero (exitEdge c) in let c0 := hd vzero (chamferEdge c) in let n0 := hd vzero (entryEdge c) in
  exists x1, chain f (snd be) e0 x1 (walk f (snd be)) /\
  bd f (Plus (leftMesh c) (fst be)) = walk f (snd be) + f x1 (vmirX (vmirY e0)) - walk f (entryEdge c) - f (vmirY n0) (vmirX (vmirY n0))
    + f (vmirX (vmirY e0)) (vmirX (vmirY c0)) + f (vmirX (vmirY c0)) (vmirX (vmirY n0)) - f e0 c0 - f c0 n0.
Proof.
  intros H W. cbv zeta.
  pose proof (withMirY_chain f) as M.
  assert (CE : chain f (exitEdge c) (hd vzero (exitEdge c)) (vmirY (hd vzero (exitEdge c))) (walk f (exitEdge c))) by apply M.
  assert (CC : chain f (chamferEdge c) (hd vzero (chamferEdge c)) (vmirY (hd vzero (chamferEdge c))) (walk f (chamferEdge c))) by apply M.
  assert (CN : chain f (entryEdge c) (hd vzero (entryEdge c)) (vmirY (hd vzero (entryEdge c))) (walk f (entryEdge c))) by apply M.
  clear M. unfold backMesh, leftMesh in *. cbn [bd]. repeat change (open_strip f ?a ?b) with (bd f (Strip a b false)).
  rewrite (chain_strip f _ _ _ _ _ _ _ _ CE CC), (chain_strip f _ _ _ _ _ _ _ _ CC CN).
  pose proof CE as CE0. unfold elast in H. destruct CE as (NE & HE & LE & WE), CC as (NC & HC & LC & WC), CN as (NN & HN & LN & WN). rewrite LE, LC, LN in H.
  set (e0 := hd vzero (exitEdge c)) in *. set (c0 := hd vzero (chamferEdge c)) in *. set (n0 := hd vzero (entryEdge c)) in *.
  set (E := exitEdge c) in *. clearbody E e0 c0 n0.
  destruct (hasClip c) as [k|].
  - grab H. apply Ok_inj in H. subst be. cbn [fst snd]. unfold clipEdgeT. unfold clipEdgeG in Q. grab Q. apply Ok_inj in Q. 
    match type of Q with ?l = x => set (g0 := nth 0 l vzero) in *; set (g1 := nth 1 l vzero) in *; set (g2 := nth 2 l vzero) in *; set (g3 := nth 3 l vzero) in * end.
    cbn [nth] in g0, g1, g2, g3. fold g0 g1 g2 g3 in Q. clearbody g0 g1 g2 g3. subst x. 
    set (t := etranslated [g0; g1; g2; g3] _). unfold etranslated in t. cbn [map] in t. set (t0 := vadd g0 _) in *. set (t1 := vadd g1 _) in *. set (t2 := vadd g2 _) in *. set (t3 := vadd g3 _) in *.
    subst t. clearbody t0 t1 t2 t3. exists g3.
    assert (CX : chain f (E ++ [g0; g1; g2; g3]) e0 g3 (walk f E + f (vmirY e0) g0 + (f g0 g1 + (f g1 g2 + (f g2 g3 + 0))))).
    { eapply chain_app; [exact CE0|]. chain. }
    rewrite (chain_walk _ _ _ _ _ CX). split; [exact CX|].
    cbn [meshes bd firstn skipn rev app nth last open_strip hd walk]. unfold open_strip. cbn [walk hd last]. steps f W. lia.
  - apply Ok_inj in H. subst be. cbn [fst snd]. exists (vmirY e0). split; [exact CE0|].
    cbn [emirX map bd]. unfold open_strip. cbn [walk hd last]. steps f W. lia.
Qed.
End Base.

Section Key.
Variable c : @key_cfg Rnum.
(* over the reals every function keeps equality *)
Lemma keepsR (g : pt -> pt) : keeps_eq g.
Proof. intros u v E. apply veqb_iff in E. subst v. apply veqb_iff. reflexivity. Qed.
Lemma turn_turn (p : pt) : turnAround (turnAround p) = p.
Proof. destruct p as [x y z]. unfold turnAround, vmirX, vmirY. cbn [vx vy vz]. cbn [Rnum nopp]. f_equal; apply Ropp_involutive. Qed.
Lemma turn_flip (p : pt) : vmirX (vmirY p) = turnAround p.
Proof. reflexivity. Qed.
(* edges of the key hole that pass through collapsed() *)
Definition key_edges : res (list (list pt)) := rmap (fun be => [entryEdge c; snd be]) (backMesh c).
Lemma key_bd fac es f : keyFactory c = Ok fac -> key_edges = Ok es -> Forall (no_short_open (nQ 1 1000)) es -> is_weight f ->
  bd f (fMesh fac) = - loop f (fHoleI fac) - loop f (fHoleO fac).
Proof.
  intros H HE S W. unfold keyFactory in H. grab H. cbv zeta in H. unfold key_edges in HE. rewrite Q in HE. cbn [rmap] in HE. apply Ok_inj in HE. subst es.
  inversion S as [|? ? S1 S']; subst. inversion S' as [|? ? S2 _]; subst. clear S S'.
  assert (Main : forall g : @weight Rnum, is_weight g -> bd g (Plus (Plus (leftMesh c) (fst x)) (Moved turnAround (Plus (leftMesh c) (fst x)))) =
    - loop g (rev (collapsed (snd x) (nQ 1 1000)) ++ map turnAround (rev (collapsed (snd x) (nQ 1 1000))))
    - loop g (collapsed (entryEdge c) (nQ 1 1000) ++ map turnAround (collapsed (entryEdge c) (nQ 1 1000)))).
  { intros g Wg. set (g' := fun a b => g (turnAround a) (turnAround b)).
    assert (Wg' : is_weight g') by exact (weight_map g turnAround Wg (keepsR turnAround)).
    change (bd g (Plus (leftMesh c) (fst x)) + bd g' (Plus (leftMesh c) (fst x)) =
      - loop g (rev (collapsed (snd x) (nQ 1 1000)) ++ map turnAround (rev (collapsed (snd x) (nQ 1 1000))))
      - loop g (collapsed (entryEdge c) (nQ 1 1000) ++ map turnAround (collapsed (entryEdge c) (nQ 1 1000)))).
    destruct (base_bd c x g Q Wg) as (x1 & C1 & B1). destruct (base_bd c x g' Q Wg') as (x1' & C1' & B1').
    assert (x1' = x1) by (destruct C1 as (_ & _ & <- & _), C1' as (_ & _ & <- & _); reflexivity). subst x1'.
    rewrite B1, B1'. clear B1 B1'. rewrite !turn_flip.
    pose proof (withMirY_chain g) as M. pose proof (withMirY_chain g') as M'.
    assert (CN : chain g (entryEdge c) (hd vzero (entryEdge c)) (vmirY (hd vzero (entryEdge c))) (walk g (entryEdge c))) by apply M.
    assert (CN' : chain g' (entryEdge c) (hd vzero (entryEdge c)) (vmirY (hd vzero (entryEdge c))) (walk g' (entryEdge c))) by apply M'.
    clear M M'.
    set (e0 := hd vzero (exitEdge c)) in *. set (c0 := hd vzero (chamferEdge c)) in *. set (n0 := hd vzero (entryEdge c)) in *. clearbody e0 c0 n0.
    pose proof (collapsed_chain g _ _ _ _ _ Wg CN S1) as KN. pose proof (collapsed_chain g' _ _ _ _ _ Wg' CN' S1) as KN'.
    pose proof (collapsed_chain g _ _ _ _ _ Wg C1 S2) as KX. pose proof (collapsed_chain g' _ _ _ _ _ Wg' C1' S2) as KX'.
    set (kn := collapsed (entryEdge c) _) in *. set (kx := collapsed (snd x) _) in *. clearbody kn kx.
    pose proof (chain_rev _ _ _ _ _ Wg KX) as RX. pose proof (chain_rev _ _ _ _ _ Wg' KX') as RX'.
    apply (chain_map g turnAround) in RX'. apply (chain_map g turnAround) in KN'.
    rewrite (chain_loop _ _ _ _ _ (chain_app _ _ _ _ _ _ _ _ _ RX RX')), (chain_loop _ _ _ _ _ (chain_app _ _ _ _ _ _ _ _ _ KN KN')).
    unfold g'. rewrite !turn_turn. fold g'.
    set (w1 := walk g (snd x)). set (w2 := walk g' (snd x)). set (w3 := walk g (entryEdge c)). set (w4 := walk g' (entryEdge c)). clearbody w1 w2 w3 w4.
    clear - Wg. steps g Wg. lia. }
  destruct (isSideways c); apply Ok_inj in H; subst fac; cbn [fMesh fHoleI fHoleO].
  - cbn [bd]. unfold etransformed. rewrite !loop_map. apply Main. apply weight_map; [exact W|apply keepsR].
  - apply Main. exact W.
Qed.
End Key.
