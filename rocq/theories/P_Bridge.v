(** C56: which vertex a hole is bridged to, and that the bridge can
    cross the polygon. *)
From Coq Require Import Reals Lra Psatz ZArith List Permutation Lia Arith Bool.
From Verif Require Import Num GeoModel EdgeModel FaceModel GeoSpec GeoMat EdgeSpecR FaceSpec FaceSpecR FaceComb FaceCut FaceHole FaceHoleR FaceEar BridgeSpec FaceBridge.
Import ListNotations.
Open Scope R_scope.

(* one hole, starting at h0: the bridge joins h0 to the end w of the first side
   its ray to the right meets or, if reflex vertices lie inside the triangle of
   h0, the point met and w, to the nearest of these *)
Theorem C56_bridge_choice : forall (points : list pt) poly h0 hole poly',
  (forall i, Z (at_ points i) = 0) -> mergeHole lt_oo points poly (h0 :: hole) = Ok poly' ->
  exists v b w, (v < length poly)%nat /\
    poly' = firstn v poly ++ nth v poly 0%nat :: (h0 :: hole) ++ h0 :: skipn v poly /\
    first_hit points poly (at_ points h0) b w /\ nearest_corner points poly (at_ points h0) b w v.
Proof.
  intros points poly h0 hole poly' F H. unfold mergeHole in H. apply bind_ok in H. destruct H as (v & EV & H). apply Ok_inj in H.
  destruct (findVisible_choice points poly (holeKey points (h0 :: hole)) F v EV) as (b & w & A & B).
  exists v, b, w. split; [exact (findVisible_vis _ _ _ _ _ EV)|]. split; [symmetry; exact H|]. split; assumption.
Qed.
Print Assumptions C56_bridge_choice.

(** ** the bridge can cross the polygon *)
(* the segments have no point in common *)
Definition segments_apart (a b c d : pt) : Prop :=
  0 < side a b c * side a b d \/ 0 < side c d a * side c d b.
(* no two sides without a common end meet *)
Definition simple (points : list pt) (es : list dedge) : Prop :=
  forall e f, In e es -> In f es -> fst e <> fst f -> fst e <> snd f -> snd e <> fst f -> snd e <> snd f ->
    segments_apart (at_ points (fst e)) (at_ points (snd e)) (at_ points (fst f)) (at_ points (snd f)).

(* the counterexample: integer coordinates *)
Definition bz : list (BinNums.Z * BinNums.Z) :=
  [(-100, -100); (200, -100); (200, 200); (100, 200); (60, 30); (56, 201); (52, 202); (32, 33);
   (180, 10); (20, 24); (20, 203); (-100, 210); (0, 0); (-20, -20); (-20, 20)]%Z.
Definition ofZ (p : BinNums.Z * BinNums.Z) : pt := P (IZR (fst p)) (IZR (snd p)) 0.
Definition bpts : list pt := map ofZ bz.
Definition bpoly : list nat := [0; 1; 2; 3; 4; 5; 6; 7; 8; 9; 10; 11]%nat.
Definition bhole : list nat := [12; 13; 14]%nat.
Definition sideZ (a b p : BinNums.Z * BinNums.Z) : BinNums.Z :=
  ((fst b - fst a) * (snd p - snd a) - (snd b - snd a) * (fst p - fst a))%Z.
Definition zat (i : nat) := nth i bz (0, 0)%Z.
Lemma sideZ_R a b p : side (ofZ a) (ofZ b) (ofZ p) = IZR (sideZ a b p).
Proof. unfold sideZ, side, ofZ, X, Y, P. cbn [vx vy]. rewrite minus_IZR, !mult_IZR, !minus_IZR. reflexivity. Qed.
Lemma bat i : at_ bpts i = ofZ (zat i).
Proof. unfold at_, bpts, zat. change (@vzero Rnum) with (ofZ (0, 0)%Z). apply map_nth. Qed.
Definition apartZ (e f : dedge) : bool :=
  let '(a, b, c, d) := (zat (fst e), zat (snd e), zat (fst f), zat (snd f)) in
  (0 <? sideZ a b c * sideZ a b d)%Z || (0 <? sideZ c d a * sideZ c d b)%Z.
Lemma bsimple : simple bpts (sides bpoly ++ sides bhole).
Proof.
  intros e f He Hf N1 N2 N3 N4.
  assert (C : forallb (fun e => forallb (fun f => Nat.eqb (fst e) (fst f) || Nat.eqb (fst e) (snd f) || Nat.eqb (snd e) (fst f) || Nat.eqb (snd e) (snd f) || apartZ e f)
    (sides bpoly ++ sides bhole)) (sides bpoly ++ sides bhole) = true) by (vm_compute; reflexivity).
  rewrite forallb_forall in C. specialize (C e He). rewrite forallb_forall in C. specialize (C f Hf).
  apply Nat.eqb_neq in N1. apply Nat.eqb_neq in N2. apply Nat.eqb_neq in N3. apply Nat.eqb_neq in N4. rewrite N1, N2, N3, N4 in C. cbn [orb] in C.
  unfold apartZ in C. unfold segments_apart. rewrite !bat, !sideZ_R, <- !mult_IZR.
  apply orb_prop in C. destruct C as [C|C]; apply Z.ltb_lt in C; [left|right]; apply IZR_lt in C; exact C.
Qed.
(* crossings of integer points *)
Definition crossingZ (x u v : BinNums.Z * BinNums.Z) : BinNums.Z :=
  if (snd u <=? snd x)%Z then (if (snd x <? snd v)%Z then (if (0 <? sideZ u v x)%Z then 1 else 0)%Z else 0%Z)
  else (if (snd v <=? snd x)%Z then (if (0 <? sideZ v u x)%Z then -1 else 0)%Z else 0%Z).
Lemma crossingZ_R x u v : crossing (ofZ x) (ofZ u) (ofZ v) = crossingZ x u v.
Proof.
  unfold crossing, crossingZ. rewrite !sideZ_R. unfold Y, ofZ, P. cbn [vy].
  destruct (Rle_dec (IZR (snd u)) (IZR (snd x))) as [A|A], (Z.leb_spec (snd u) (snd x)) as [B|B]; try (exfalso; apply IZR_le in B; contradiction); try (exfalso; apply le_IZR in A; lia).
  - destruct (Rlt_dec (IZR (snd x)) (IZR (snd v))) as [C|C], (Z.ltb_spec (snd x) (snd v)) as [D|D]; try (exfalso; apply IZR_lt in D; contradiction); try (exfalso; apply lt_IZR in C; lia); auto.
    destruct (Rlt_dec 0 (IZR (sideZ u v x))) as [E|E], (Z.ltb_spec 0 (sideZ u v x)) as [F|F]; auto; [exfalso; apply lt_IZR in E; lia|exfalso; apply IZR_lt in F; contradiction].
  - destruct (Rle_dec (IZR (snd v)) (IZR (snd x))) as [C|C], (Z.leb_spec (snd v) (snd x)) as [D|D]; try (exfalso; apply IZR_le in D; contradiction); try (exfalso; apply le_IZR in C; lia); auto.
    destruct (Rlt_dec 0 (IZR (sideZ v u x))) as [E|E], (Z.ltb_spec 0 (sideZ v u x)) as [F|F]; auto; [exfalso; apply lt_IZR in E; lia|exfalso; apply IZR_lt in F; contradiction].
Qed.
Lemma windingZ es x : winding bpts es (ofZ x) = fold_right (fun e s => crossingZ x (zat (fst e)) (zat (snd e)) + s)%Z 0%Z es.
Proof. unfold winding. induction es as [|e es IH]; cbn [fold_right]; [reflexivity|]. rewrite IH, !bat, crossingZ_R. reflexivity. Qed.
Lemma bwinding v : In v bhole -> winding bpts (sides bpoly) (at_ bpts v) = 1%Z.
Proof. intros H. rewrite bat, windingZ. cbn in H. destruct H as [<-|[<-|[<-|[]]]]; vm_compute; reflexivity. Qed.
Lemma bflat i : Z (at_ bpts i) = 0. Proof. rewrite bat. reflexivity. Qed.

Ltac bverts H := 
  repeat match type of H with context [nth ?i bpoly 0%nat] => let v := eval vm_compute in (nth i bpoly 0%nat) in change (nth i bpoly 0%nat) with v in H end.
Lemma len_le (u v : BinNums.Z * BinNums.Z) k : (0 <= k)%Z -> ((fst u - fst v) * (fst u - fst v) + (snd u - snd v) * (snd u - snd v) <= k * k)%Z -> edist2 (ofZ u) (ofZ v) <= IZR k.
Proof.
  intros K H. unfold edist2. apply Rsqr_incr_0_var; [|apply IZR_le in K; exact K]. rewrite Rsqr_sqrt.
  - unfold sqdist2, Rsqr, X, Y, ofZ, P. cbn [vx vy]. rewrite <- !minus_IZR, <- !mult_IZR, <- plus_IZR. apply IZR_le. exact H.
  - unfold sqdist2. pose proof (Rle_0_sqr (X (ofZ u) - X (ofZ v))). pose proof (Rle_0_sqr (Y (ofZ u) - Y (ofZ v))). lra.
Qed.
Lemma deepZ a b c p : (edist2 (ofZ a) (ofZ b) <= 1000 /\ edist2 (ofZ b) (ofZ c) <= 1000 /\ edist2 (ofZ c) (ofZ a) <= 1000) ->
  (0 < sideZ a b p /\ 0 < sideZ b c p /\ 0 < sideZ c a p)%Z -> deep_inside (ofZ a) (ofZ b) (ofZ c) (ofZ p).
Proof.
  intros (A & B & C) (D & E & F). unfold deep_inside. rewrite !sideZ_R.
  assert (G : forall z, (0 < z)%Z -> 1 <= IZR z) by (intros z Hz; apply IZR_le; lia). apply G in D. apply G in E. apply G in F.
  unfold eps. split; [|split]; lra.
Qed.
Lemma deep_pos a b c p : deep_inside a b c p -> 0 < side a b p /\ 0 < side b c p /\ 0 < side c a p.
Proof.
  intros (A & B & C). assert (eps > 0) by (unfold eps; lra).
  assert (0 <= eps * edist2 a b /\ 0 <= eps * edist2 b c /\ 0 <= eps * edist2 c a) as (? & ? & ?) by (repeat split; apply Rmult_le_pos; try lra; apply edist2_nonneg). lra.
Qed.

(* the ray meets side 1 first, at (200, 0) *)
Lemma bray b w : first_hit bpts bpoly (at_ bpts 12) b w -> X b = 200 /\ Y b = 0 /\ w = 2%nat.
Proof.
  intros (_ & H1 & H2 & H3 & (i & Hi & (M1 & M2) & FE) & H5). rewrite bat in H1, H2.
  assert (L : X b <= 200).
  { apply (H5 1%nat); [cbn; lia|]. split; [rewrite bat; cbn; lra|]. left. rewrite !bat. unfold ofZ, X, Y, P. cbn. split; [lra|]. split; [lra|]. split; lra. }
  assert (K : In i (seq 0 12)) by (apply in_seq; cbn in Hi; lia). clear Hi H5. unfold far_end in FE. cbv zeta in FE. rewrite !bat in *. unfold ofZ, X, Y, P in *. cbn [vx vy] in *.
  cbn [seq In] in K. repeat (destruct K as [<-|K]; [try (exfalso; cbn in *; lra)|]); [|destruct K].
  cbn in M2. assert (XB : vx b = 200) by lra. split; [exact XB|]. split; [cbn in H1; lra|]. cbn in FE.
  destruct FE as [(_ & [(-> & K)|(-> & _)])|(K & _)]; [lra|reflexivity|lra].
Qed.
Lemma bnear v b w : first_hit bpts bpoly (at_ bpts 12) b w -> nearest_corner bpts bpoly (at_ bpts 12) b w v -> v = 4%nat.
Proof.
  intros FH NC. assert (ZB : Z b = 0) by apply FH. destruct (bray b w FH) as (XB & YB & ->). clear FH.
  assert (EB : b = ofZ (200, 0)%Z) by (destruct b; unfold X, Y, Z, ofZ, P in *; cbn in *; subst; reflexivity). subst b. clear XB YB ZB.
  unfold nearest_corner in NC. rewrite !bat in NC. change (zat (nth 2 bpoly 0%nat)) with (200, 200)%Z in NC. change (zat 12) with (0, 0)%Z in NC.
  assert (B4 : blocking bpts bpoly (ofZ (0, 0)%Z) (ofZ (200, 0)%Z) (ofZ (200, 200)%Z) 4).
  { split; [cbn; lia|]. rewrite !bat. split.
    - left. apply deepZ; [|vm_compute; auto].
      split; [|split]; (apply (len_le _ _ 1000); vm_compute; discriminate).
    - rewrite sideZ_R. apply IZR_lt. vm_compute. reflexivity. }
  destruct NC as [(K & _)|(_ & [(_ & K)|((HV & D & _) & K)])].
  - exfalso. assert (Y (ofZ (200, 0)%Z) = Y (ofZ (200, 200)%Z)) by (rewrite K; reflexivity). unfold ofZ, Y, P in H. cbn in H. lra.
  - destruct (K _ B4).
  - specialize (K 4%nat B4). rewrite !bat in K, D. change (zat (nth 4 bpoly 0%nat)) with (60, 30)%Z in K.
    assert (D' : (0 < sideZ (0, 0) (200, 0) (zat (nth v bpoly 0%nat)) /\ 0 < sideZ (200, 0) (200, 200) (zat (nth v bpoly 0%nat)) /\ 0 < sideZ (200, 200) (0, 0) (zat (nth v bpoly 0%nat)))%Z).
    { destruct D as [D|D]; apply deep_pos in D; rewrite !sideZ_R in D; destruct D as (D1 & D2 & D3); apply lt_IZR in D1; apply lt_IZR in D2; apply lt_IZR in D3; [auto|].
      exfalso. assert (E : (sideZ (0, 0) (200, 200) (zat (nth v bpoly 0%nat)) + sideZ (200, 200) (200, 0) (zat (nth v bpoly 0%nat)) + sideZ (200, 0) (0, 0) (zat (nth v bpoly 0%nat)) < 0)%Z); [|lia].
      unfold sideZ. cbn [fst snd]. lia. }
    assert (K' : forall u p, sqdist2 (ofZ u) (ofZ p) = IZR ((fst u - fst p) * (fst u - fst p) + (snd u - snd p) * (snd u - snd p))).
    { intros u p. unfold sqdist2, Rsqr, X, Y, ofZ, P. cbn [vx vy]. rewrite <- !minus_IZR, <- !mult_IZR, <- plus_IZR. reflexivity. }
    rewrite !K' in K. apply le_IZR in K. clear -HV D' K. change (v < 12)%nat in HV.
    assert (I : In v (seq 0 12)) by (apply in_seq; lia). cbn [seq In] in I.
    repeat (destruct I as [<-|I]; [try reflexivity; exfalso; vm_compute in D', K; destruct D' as (D1 & D2 & D3); first [discriminate|apply K; reflexivity]|]). destruct I.
Qed.

Lemma brotate : sortHoles bpts (map (rotateTo bpts) [bhole]) = [bhole].
Proof.
  assert (V : forall i, (i = 13 \/ i = 14)%nat -> vltb (at_ bpts 12) (at_ bpts i) = false).
  { intros i Hi. rewrite !bat. unfold vltb, ofZ, P. cbn [vx]. rn.
    assert (Reqb (IZR (fst (zat 12))) (IZR (fst (zat i))) = false) as ->.
    { destruct (Reqb _ _) eqn:E; [|reflexivity]. apply Reqb_true in E. destruct Hi as [->| ->]; cbn in E; lra. }
    cbn [negb]. apply Rltb_false. destruct Hi as [->| ->]; cbn; lra. }
  assert (R : rotateTo bpts bhole = bhole).
  { unfold rotateTo, argmax, bhole. cbn [argmaxFrom]. rewrite (V 13%nat), (V 14%nat) by auto. reflexivity. }
  cbn [map]. rewrite R. reflexivity.
Qed.
(* a simple polygon with one simple hole inside, both turning the right way:
   the bridge the program adds crosses a side of the polygon *)
Theorem C56_bridge_crosses_refuted : exists (points : list pt) poly hole poly',
  (forall i, Z (at_ points i) = 0) /\ NoDup (poly ++ hole) /\ simple points (sides poly ++ sides hole) /\
  (forall v, In v hole -> winding points (sides poly) (at_ points v) = 1%Z) /\
  mergeHoles lt_oo points poly [hole] = Ok poly' /\
  exists e f, In e (sides poly') /\ ~ In e (sides poly ++ sides hole) /\ In f (sides poly) /\
    cross (at_ points (fst e)) (at_ points (snd e)) (at_ points (fst f)) (at_ points (snd f)).
Proof.
  exists bpts, bpoly, bhole.
  assert (EX : exists poly', mergeHoles lt_oo bpts bpoly [bhole] = Ok poly').
  { apply mergeHoles_total; [exact bflat|]. split; [|split; [|split]].
    - intros h [<-|[]]. discriminate.
    - cbn. repeat constructor; cbn; lia.
    - intros h v [<-|[]] Hv. rewrite bwinding by exact Hv. lia.
    - intros h g v [<-|[]] [<-|[]] K. contradiction. }
  destruct EX as (poly' & EP). exists poly'. split; [exact bflat|]. split; [cbn; repeat constructor; cbn; lia|]. split; [exact bsimple|].
  split; [exact bwinding|]. split; [exact EP|].
  unfold mergeHoles in EP. cbn [existsb bhole orb] in EP. fold bhole in EP. rewrite brotate in EP. cbn [foldM] in EP.
  apply bind_ok in EP. destruct EP as (p1 & E1 & EP). apply Ok_inj in EP. subst p1.
  destruct (C56_bridge_choice bpts bpoly 12%nat [13; 14]%nat poly' bflat E1) as (v & b & w & HV & EP & FH & NC).
  rewrite (bnear v b w FH NC) in EP. subst poly'.
  exists (4, 12)%nat, (8, 9)%nat. split; [vm_compute; auto 20|]. split; [vm_compute; intuition discriminate|]. split; [vm_compute; auto 20|].
  unfold cross. rewrite !bat, !sideZ_R, <- !mult_IZR. split; apply IZR_lt; vm_compute; reflexivity.
Qed.
Print Assumptions C56_bridge_crosses_refuted.
