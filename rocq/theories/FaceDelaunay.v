(** Flipping keeps triangles from overlapping, and ends locally Delaunay. *)
From Coq Require Import Reals Lra Psatz ZArith List Permutation Lia Arith Bool.
From Verif Require Import Num GeoModel EdgeModel FaceModel GeoSpec EdgeSpecR FaceSpec FaceSpecR FaceCut FaceFlip FaceCover FaceFlipR.
Import ListNotations.
Open Scope R_scope.

(** ** a generic point *)
Definition aff : Type := R * R * R.
Definition ev (g : aff) (x : pt) : R := let '(al, be, ga) := g in al * X x + be * Y x + ga.
Definition proper (g : aff) : Prop := let '(al, be, _) := g in al <> 0 \/ be <> 0.
Definition move (x : pt) (e al be : R) : pt := P (X x + e * al) (Y x + e * be) 0.
Lemma ev_move g x e al be : ev g (move x e al be) = ev g x + e * (fst (fst g) * al + snd (fst g) * be).
Proof. destruct g as [[a b] c]. unfold ev, move, X, Y, P. cbn. ring. Qed.
Lemma stay_positive ps x al be : (forall g, In g ps -> 0 < ev g x) ->
  exists d, 0 < d /\ forall e, 0 <= e <= d -> forall g, In g ps -> 0 < ev g (move x e al be).
Proof.
  induction ps as [|g ps IH]; intros H; [exists 1; split; [lra|]; intros ? ? ? []|].
  destruct (IH (fun h Hh => H h (or_intror Hh))) as (d & D0 & HD).
  pose proof (H g (or_introl eq_refl)) as G. set (s := fst (fst g) * al + snd (fst g) * be).
  exists (Rmin d (ev g x / (1 + Rabs s))). assert (A : 0 < 1 + Rabs s) by (pose proof (Rabs_pos s); lra).
  split; [apply Rmin_pos; [lra|apply Rdiv_lt_0_compat; lra]|]. intros e [E0 E1] h [<-|Hh].
  - rewrite ev_move. fold s. assert (E2 : e <= ev g x / (1 + Rabs s)) by (pose proof (Rmin_r d (ev g x / (1 + Rabs s))); lra).
    assert (E3 : e * (1 + Rabs s) <= ev g x). { apply (Rmult_le_compat_r (1 + Rabs s)) in E2; [|lra]. replace (ev g x / (1 + Rabs s) * (1 + Rabs s)) with (ev g x) in E2 by (field; lra). exact E2. }
    assert (- Rabs s <= s) by (pose proof (Rle_abs (- s)) as T; rewrite Rabs_Ropp in T; lra).
    destruct (Req_dec e 0) as [->|NE]; [lra|]. nra.
  - apply HD; [|exact Hh]. pose proof (Rmin_l d (ev g x / (1 + Rabs s))). lra.
Qed.
Definition neg (g : aff) : aff := let '(a, b, c) := g in (- a, - b, - c).
Lemma ev_neg g x : ev (neg g) x = - ev g x.
Proof. destruct g as [[a b] c]. unfold ev, neg. ring. Qed.
Lemma generic_point ls : (forall g, In g ls -> proper g) -> forall ps x, (forall g, In g ps -> 0 < ev g x) ->
  exists y, (forall g, In g ps -> 0 < ev g y) /\ (forall g, In g ls -> ev g y <> 0).
Proof.
  induction ls as [|g ls IH]; intros HL ps x HP; [exists x; split; [exact HP|intros ? []]|].
  destruct (IH (fun h Hh => HL h (or_intror Hh)) ps x HP) as (y & Y1 & Y2).
  (* keep the signs of the other lines *)
  set (ps' := ps ++ map (fun h => if Rlt_dec 0 (ev h y) then h else neg h) ls).
  assert (HP' : forall h, In h ps' -> 0 < ev h y).
  { intros h Hh. apply in_app_or in Hh. destruct Hh as [Hh|Hh]; [apply Y1, Hh|]. apply in_map_iff in Hh. destruct Hh as (u & <- & Hu).
    specialize (Y2 u Hu). destruct (Rlt_dec 0 (ev u y)); [assumption|]. rewrite ev_neg. lra. }
  destruct g as [[al be] ga] eqn:Eg. destruct (stay_positive ps' y al be HP') as (d & D0 & HD).
  assert (PR : 0 < al * al + be * be). { pose proof (HL _ (or_introl eq_refl)) as K. cbn in K. destruct K; nra. }
  set (e := if Req_EM_T (ev (al, be, ga) y) 0 then d else 0).
  assert (E01 : 0 <= e <= d) by (unfold e; destruct (Req_EM_T _ _); lra).
  exists (move y e al be). split.
  - intros h Hh. apply HD; [exact E01|]. apply in_or_app. auto.
  - intros h [<-|Hh].
    + rewrite ev_move. cbn [fst snd]. unfold e. destruct (Req_EM_T (ev (al, be, ga) y) 0) as [->|NE]; [|lra]. nra.
    + assert (K : 0 < ev (if Rlt_dec 0 (ev h y) then h else neg h) (move y e al be)).
      { apply HD; [exact E01|]. apply in_or_app. right. apply in_map_iff. exists h. auto. }
      destruct (Rlt_dec 0 (ev h y)); [lra|]. rewrite ev_neg in K. lra.
Qed.

(* sides as affine functions *)
Definition saff (a b : pt) : aff := (- (Y b - Y a), X b - X a, (Y b - Y a) * X a - (X b - X a) * Y a).
Lemma saff_ev a b x : ev (saff a b) x = side a b x.
Proof. unfold ev, saff, side. ring. Qed.

Section Del.
Variable pts : list pt.
Notation p_ i := (at_ pts i).
Definition taff (t : itri) : list aff := let '(a, b, c) := t in [saff (p_ a) (p_ b); saff (p_ b) (p_ c); saff (p_ c) (p_ a)].
Lemma taff_in t x : in_tri pts t x <-> forall g, In g (taff t) -> 0 < ev g x.
Proof.
  destruct t as [[a b] c]. cbn. unfold inside3. split.
  - intros (A & B & C) g [<-|[<-|[<-|[]]]]; rewrite saff_ev; assumption.
  - intros H. rewrite <- !saff_ev. split; [|split]; apply H; auto.
Qed.
Lemma taff_proper t : 0 < area2 pts t -> forall g, In g (taff t) -> proper g.
Proof.
  destruct t as [[a b] c]. cbn. unfold side. intros H g [<-|[<-|[<-|[]]]]; cbn.
  - destruct (Req_dec (X (p_ b) - X (p_ a)) 0) as [E|E]; [left|auto]. intros C. rewrite E in H. nra.
  - destruct (Req_dec (X (p_ c) - X (p_ b)) 0) as [E|E]; [left|auto]. intros C.
    assert (E1 : X (p_ c) = X (p_ b)) by lra. assert (E2 : Y (p_ c) = Y (p_ b)) by lra. rewrite E1, E2 in H. nra.
  - destruct (Req_dec (X (p_ a) - X (p_ c)) 0) as [E|E]; [left|auto]. intros C.
    assert (E1 : X (p_ c) = X (p_ a)) by lra. assert (E2 : Y (p_ c) = Y (p_ a)) by lra. rewrite E1, E2 in H. nra.
Qed.
Lemma area_pos_of_in t x : in_tri pts t x -> 0 < area2 pts t.
Proof. destruct t as [[a b] c]. cbn. intros (A & B & C). rewrite <- (bary_sum _ _ _ x). lra. Qed.
(* off all side lines, a positive triangle contains x or x is outside *)
Lemma taff_dec t x : (forall g, In g (taff t) -> ev g x <> 0) -> in_tri pts t x \/ out_tri pts t x.
Proof.
  intros H. destruct t as [[a b] c]. cbn in *. unfold inside3, outside3.
  pose proof (H _ (or_introl eq_refl)) as A. pose proof (H _ (or_intror (or_introl eq_refl))) as B. pose proof (H _ (or_intror (or_intror (or_introl eq_refl)))) as C.
  rewrite saff_ev in A, B, C. lra.
Qed.
Lemma wtri_flat t x : area2 pts t = 0 -> wtri pts t x = 0%Z.
Proof.
  intros H. pose proof (wtri_claim pts t x ltac:(lra)) as ((L & _) & _).
  destruct t as [[a b] c]. pose proof (wtri_claim pts (a, c, b) x) as K. cbn in H, K.
  assert (E : side (p_ a) (p_ c) (p_ b) = 0) by (rewrite <- H; unfold side in *; lra).
  destruct (K ltac:(lra)) as ((L2 & _) & _). unfold wtri, winding in *. cbn [tri_sides fold_right fst snd] in *.
  rewrite (crossing_anti x (p_ a) (p_ c)), (crossing_anti x (p_ c) (p_ b)), (crossing_anti x (p_ b) (p_ a)) in L2. lia.
Qed.
(* the sum of 0/1 values, at most one of which is 1 *)
Lemma sum_le1 (f : itri -> BinNums.Z) ts : (forall t, In t ts -> f t = 0%Z \/ f t = 1%Z) ->
  (forall i j, (i < length ts)%nat -> (j < length ts)%nat -> i <> j -> f (nth i ts NT) = 1%Z -> f (nth j ts NT) = 1%Z -> False) ->
  (fold_right (fun t s => f t + s)%Z 0%Z ts <= 1)%Z.
Proof.
  induction ts as [|t ts IH]; intros V U; cbn [fold_right]; [lia|].
  assert (IH' : (fold_right (fun t s => f t + s)%Z 0%Z ts <= 1)%Z).
  { apply IH; [intros; apply V; right; assumption|]. intros i j Hi Hj NE. apply (U (S i) (S j)); cbn; lia. }
  destruct (V t (or_introl eq_refl)) as [E|E]; rewrite E; [lia|].
  assert (Z : fold_right (fun t s => f t + s)%Z 0%Z ts = 0%Z).
  { assert (A : forall u, In u ts -> f u = 0%Z).
    { intros u Hu. destruct (V u (or_intror Hu)) as [K|K]; [exact K|]. exfalso. destruct (In_nth _ _ NT Hu) as (j & Lj & Ej).
      apply (U 0%nat (S j)); cbn; try lia. rewrite Ej. exact K. }
    clear -A. induction ts as [|u ts IH]; [reflexivity|]. cbn [fold_right]. rewrite (A u (or_introl eq_refl)), IH; [reflexivity|]. intros; apply A; right; assumption. }
  rewrite Z. lia.
Qed.
Lemma sum_ge2 (f : itri -> BinNums.Z) ts i j : (forall t, In t ts -> (0 <= f t)%Z) -> (i < length ts)%nat -> (j < length ts)%nat -> i <> j ->
  f (nth i ts NT) = 1%Z -> f (nth j ts NT) = 1%Z -> (2 <= fold_right (fun t s => f t + s)%Z 0%Z ts)%Z.
Proof.
  assert (S1 : forall ts k, (forall t, In t ts -> (0 <= f t)%Z) -> (k < length ts)%nat -> f (nth k ts NT) = 1%Z -> (1 <= fold_right (fun t s => f t + s)%Z 0%Z ts)%Z).
  { clear. induction ts as [|t ts IH]; intros k V L E; [cbn in L; lia|]. cbn [fold_right].
    assert (Z : (0 <= fold_right (fun t s => f t + s)%Z 0%Z ts)%Z).
    { assert (V' : forall u, In u ts -> (0 <= f u)%Z) by (intros; apply V; right; assumption). clear -V'. induction ts as [|u ts IH]; cbn; [lia|]. pose proof (V' u (or_introl eq_refl)). specialize (IH (fun w Hw => V' w (or_intror Hw))). lia. }
    destruct k as [|k]; cbn [nth] in E; [lia|]. pose proof (V t (or_introl eq_refl)). cbn in L. specialize (IH k (fun u Hu => V u (or_intror Hu)) ltac:(lia) E). lia. }
  revert i j. induction ts as [|t ts IH]; intros i j V Li Lj NE Ei Ej; [cbn in Li; lia|]. cbn [fold_right].
  pose proof (V t (or_introl eq_refl)) as V0. assert (V' : forall u, In u ts -> (0 <= f u)%Z) by (intros; apply V; right; assumption).
  destruct i as [|i], j as [|j]; cbn [nth length] in *; try lia.
  - pose proof (S1 ts j V' ltac:(lia) Ej). lia.
  - pose proof (S1 ts i V' ltac:(lia) Ei). lia.
  - pose proof (IH i j V' ltac:(lia) ltac:(lia) ltac:(lia) Ei Ej). lia.
Qed.
Theorem overlap_transfer ts0 ts1 : (forall t, In t ts0 -> 0 <= area2 pts t) -> (forall t, In t ts1 -> 0 <= area2 pts t) ->
  no_overlap pts ts0 -> (forall x, winding pts (mesh_sides ts1) x = winding pts (mesh_sides ts0) x) -> no_overlap pts ts1.
Proof.
  intros C0 C1 NO W i j x Li Lj NE (Ii & Ij).
  set (solid := filter (fun t => if Rlt_dec 0 (area2 pts t) then true else false) ts0).
  destruct (generic_point (flat_map taff solid)) with (ps := taff (nth i ts1 NT) ++ taff (nth j ts1 NT)) (x := x) as (y & Y1 & Y2).
  { intros g Hg. apply in_flat_map in Hg. destruct Hg as (t & Ht & Hg). apply filter_In in Ht. destruct Ht as (_ & Ht).
    destruct (Rlt_dec 0 (area2 pts t)) as [K|]; [|discriminate]. apply (taff_proper t K g Hg). }
  { intros g Hg. apply in_app_or in Hg. destruct Hg as [Hg|Hg]; [apply (proj1 (taff_in _ x) Ii g Hg)|apply (proj1 (taff_in _ x) Ij g Hg)]. }
  assert (Iy : in_tri pts (nth i ts1 NT) y) by (apply taff_in; intros; apply Y1, in_or_app; auto).
  assert (Jy : in_tri pts (nth j ts1 NT) y) by (apply taff_in; intros; apply Y1, in_or_app; auto).
  pose proof (W y) as Wy. rewrite !winding_mesh in Wy.
  assert (G2 : (2 <= fold_right (fun t s => wtri pts t y + s)%Z 0%Z ts1)%Z).
  { apply (sum_ge2 (fun t => wtri pts t y) ts1 i j); auto.
    - intros t Ht. apply (wtri_claim pts t y (C1 t Ht)).
    - apply (wtri_claim pts _ y (C1 _ (nth_In _ NT Li))), Iy.
    - apply (wtri_claim pts _ y (C1 _ (nth_In _ NT Lj))), Jy. }
  assert (DEC : forall t, In t ts0 -> (wtri pts t y = 0%Z \/ wtri pts t y = 1%Z) /\ (wtri pts t y = 1%Z -> in_tri pts t y)).
  { intros t Ht. destruct (Rlt_dec 0 (area2 pts t)) as [K|K].
    - destruct (taff_dec t y) as [D|D].
      + intros g Hg. apply Y2. apply in_flat_map. exists t. split; [|exact Hg]. apply filter_In. split; [exact Ht|]. destruct (Rlt_dec 0 (area2 pts t)); [reflexivity|contradiction].
      + split; [right; apply (wtri_claim pts t y ltac:(lra)), D|auto].
      + assert (wtri pts t y = 0%Z) by (apply (wtri_claim pts t y ltac:(lra)), D). split; [auto|lia].
    - assert (wtri pts t y = 0%Z) by (apply wtri_flat; specialize (C0 t Ht); lra). split; [auto|lia]. }
  assert (G1 : (fold_right (fun t s => wtri pts t y + s)%Z 0%Z ts0 <= 1)%Z).
  { apply (sum_le1 (fun t => wtri pts t y)); [intros t Ht; apply DEC, Ht|]. intros k l Lk Ll NKL Ek El.
    apply (NO k l y Lk Ll NKL). split; apply DEC; auto using nth_In. }
  lia.
Qed.

(** ** without overlap every directed side belongs to one triangle *)
Lemma common_point u v p q : 0 < side u v p -> 0 < side u v q -> exists x, inside3 u v p x /\ inside3 u v q x.
Proof.
  intros HP HQ. set (m := P ((X u + X v) / 2) ((Y u + Y v) / 2) 0).
  destruct (stay_positive [saff v p; saff p u; saff v q; saff q u] m (- (Y v - Y u)) (X v - X u)) as (d & D0 & HD).
  { unfold side in *. intros g [<-|[<-|[<-|[<-|[]]]]]; rewrite saff_ev; unfold side, m, X, Y, P in *; cbn in *; lra. }
  specialize (HD d ltac:(lra)). exists (move m d (- (Y v - Y u)) (X v - X u)).
  assert (K : 0 < side u v (move m d (- (Y v - Y u)) (X v - X u))).
  { rewrite <- saff_ev, ev_move, saff_ev. cbn [fst snd saff]. assert (E : side u v m = 0) by (unfold side, m, X, Y, P; cbn; lra). rewrite E.
    assert (0 < (Y v - Y u) * (Y v - Y u) + (X v - X u) * (X v - X u)).
    { assert (NZ : X v - X u <> 0 \/ Y v - Y u <> 0).
      { destruct (Req_dec (X v - X u) 0) as [E1|E1]; [right|auto]. intros E2. unfold side in HP. rewrite E1, E2 in HP. lra. }
      pose proof (Rle_0_sqr (Y v - Y u)) as A1. pose proof (Rle_0_sqr (X v - X u)) as A2. unfold Rsqr in A1, A2.
      destruct NZ as [NZ|NZ]; pose proof (Rsqr_pos_lt _ NZ) as A3; unfold Rsqr in A3; lra. }
    nra. }
  unfold inside3. split; (split; [exact K|]); split; rewrite <- saff_ev; apply HD; cbn; auto.
Qed.
Lemma in_tri_rot t a b c x : In (a, b) (tri_sides t) -> distinct3 t -> Permutation (tri_sides t) [(a, b); (b, c); (c, a)] ->
  (in_tri pts t x <-> inside3 (p_ a) (p_ b) (p_ c) x).
Proof.
  intros I D H. destruct (tri_view t a b D I) as (c' & ? & ? & N1 & N2 & N3 & _ & _ & _ & P' & _).
  assert (c' = c).
  { rewrite H in P'. pose proof (Permutation_in _ (Permutation_sym P') (or_intror (or_introl eq_refl))) as K. cbn in K.
    destruct K as [K|[K|[K|[]]]]; assert (K1 := f_equal fst K); assert (K2 := f_equal snd K); cbn in K1, K2; congruence. }
  subst c'. destruct (sides_rot3 t a b c N1 N2 N3 H) as [->|[->| ->]]; cbn; unfold inside3; tauto.
Qed.
Lemma no_overlap_sides ts : (forall t, In t ts -> distinct3 t) -> (forall t, In t ts -> 0 < area2 pts t) -> no_overlap pts ts ->
  forall i j e, (i < length ts)%nat -> (j < length ts)%nat -> In e (tri_sides (nth i ts NT)) -> In e (tri_sides (nth j ts NT)) -> i = j.
Proof.
  intros D C NO i j [a b] Li Lj Hi Hj. destruct (Nat.eq_dec i j) as [|NE]; [assumption|exfalso].
  assert (Di := D _ (nth_In _ NT Li)). assert (Dj := D _ (nth_In _ NT Lj)).
  destruct (tri_view _ a b Di Hi) as (c & ? & ? & N1 & N2 & N3 & _ & _ & _ & Pi & _).
  destruct (tri_view _ a b Dj Hj) as (c' & ? & ? & _ & N4 & N5 & _ & _ & _ & Pj & _).
  assert (Ci := C _ (nth_In _ NT Li)). rewrite (area_sides pts _ a b c) in Ci by auto.
  assert (Cj := C _ (nth_In _ NT Lj)). rewrite (area_sides pts _ a b c') in Cj by auto.
  destruct (common_point _ _ _ _ Ci Cj) as (xx & X1 & X2). apply (NO i j xx Li Lj NE).
  split; [apply (in_tri_rot _ a b c)|apply (in_tri_rot _ a b c')]; auto.
Qed.

(** ** the local Delaunay property *)
(* c is the third corner of the triangle with side (a, b) *)
Definition apex (t : itri) (a b c : nat) : Prop := In (b, c) (tri_sides t) /\ In (c, a) (tri_sides t).
Definition waiting (st : fstate) : Prop := forall u v i0 i1 c d,
  flookup st (u, v) = Some i0 -> flookup st (v, u) = Some i1 ->
  apex (nth i0 (ftris st) NT) u v c -> apex (nth i1 (ftris st) NT) v u d ->
  isDelaunay pts u v c d = true \/ In (u, v) (frem st) \/ In (v, u) (frem st).
Lemma apex_unique t a b c c' : distinct3 t -> In (a, b) (tri_sides t) -> apex t a b c -> apex t a b c' -> c = c'.
Proof.
  intros D I (A1 & A2) (B1 & B2). destruct (tri_view t a b D I) as (e & ? & ? & N1 & N2 & N3 & _ & _ & _ & P' & _).
  apply (Permutation_in _ P') in A1. apply (Permutation_in _ P') in B1. cbn in A1, B1.
  assert (forall z, (a, b) = (b, z) \/ (b, e) = (b, z) \/ (e, a) = (b, z) \/ False -> z = e).
  { intros z [K|[K|[K|[]]]]; assert (K1 := f_equal fst K); assert (K2 := f_equal snd K); cbn in K1, K2; congruence. }
  rewrite (H _ A1), (H _ B1). reflexivity.
Qed.
Lemma del_sym a b c d : isDelaunay pts b a d c = isDelaunay pts a b c d.
Proof. apply eq_iff_eq_true. rewrite !isDelaunay_R, incircle_sym. reflexivity. Qed.
Lemma sremove_in k l e : In e l -> e <> k -> In e (sremove k l).
Proof. intros H N. unfold sremove. apply filter_In. split; [exact H|]. destruct (keqb_spec k e); [congruence|reflexivity]. Qed.
Lemma sadd_in k l e : In e (sadd k l) <-> e = k \/ In e l.
Proof.
  unfold sadd. destruct (existsb (keqb k) l) eqn:E.
  - apply existsb_exists in E. destruct E as (f & Hf & K). destruct (keqb_spec k f) as [<-|]; [|discriminate]. split; [auto|]. intros [->|H]; auto.
  - rewrite in_app_iff. cbn. intuition.
Qed.
Lemma effect_waiting st k st' : sound st -> effect pts k st st' -> waiting st -> waiting st'.
Proof.
  intros V E H. pose proof V as [DT LS]. assert (V' : sound st') by (eapply flip_sound; eauto; intros; apply same_apex_R).
  pose proof V' as [DT' LS'].
  destruct E as [E1 E2 E3 E4|a b c d i0 i1 t0 t1 -> L0 L1 NE B0 B1 N1 N2 N3 N4 N5 P0 P1 DE Q1 Q2 Q3 Q4 E1 E2 E3].
  - intros u v i0 i1 c d. rewrite !E2, E1, E3. intros L0 L1 A0 A1.
    destruct (H u v i0 i1 c d L0 L1 A0 A1) as [K|K]; [auto|].
    destruct (LS _ _ L0) as [B0 S0]. destruct (LS _ _ L1) as [B1 S1].
    assert (D0 := DT _ (nth_In _ NT B0)). assert (D1 := DT _ (nth_In _ NT B1)).
    destruct (keqb_spec k (u, v)) as [EK|NK].
    { left. subst k. destruct (E4 i0 i1 L0 L1) as (c' & d' & K1 & K2 & K3 & K4 & K5). cbn in K1, K2, K3, K4, K5.
      rewrite (apex_unique _ _ _ c c' D0 S0 A0 (conj K1 K2)), (apex_unique _ _ _ d d' D1 S1 A1 (conj K4 K3)). exact K5. }
    destruct (keqb_spec k (v, u)) as [EK|NK2].
    { left. subst k. destruct (E4 i1 i0 L1 L0) as (c' & d' & K1 & K2 & K3 & K4 & K5). cbn in K1, K2, K3, K4, K5.
      rewrite (apex_unique _ _ _ c d' D0 S0 A0 (conj K4 K3)), (apex_unique _ _ _ d c' D1 S1 A1 (conj K1 K2)). rewrite del_sym. exact K5. }
    right. destruct K as [K|K]; [left|right]; apply sremove_in; auto.
  - assert (CD : c <> d) by (intros <-; rewrite same_apex_R in DE; discriminate).
    intros u v j0 j1 c' d' L0' L1' A0 A1.
    assert (REM : forall e, In e (frem st') <-> e = (b, c) \/ e = (d, b) \/ e = (a, d) \/ e = (c, a) \/ In e (sremove (a, b) (frem st))).
    { intros e. rewrite E3, !sadd_in. tauto. }
    destruct (LS' _ _ L0') as [C0 S0]. destruct (LS' _ _ L1') as [C1 S1].
    assert (T0 : nth i0 (ftris st') NT = t0).
    { rewrite E1, nth_upd, (proj2 (Nat.eqb_neq i0 i1)) by auto. cbn. rewrite nth_upd, Nat.eqb_refl, (proj2 (Nat.ltb_lt _ _)) by auto. reflexivity. }
    assert (T1 : nth i1 (ftris st') NT = t1).
    { rewrite E1, nth_upd, Nat.eqb_refl, (proj2 (Nat.ltb_lt _ _)) by (rewrite upd_length; auto). reflexivity. }
    (* the side (u,v) or its reverse is one of the outer sides: waiting again *)
    destruct (keqb_spec (b, c) (u, v)) as [Z|Y1]; [right; left; apply REM; auto|]. destruct (keqb_spec (b, c) (v, u)) as [Z|Y1']; [right; right; apply REM; auto|].
    destruct (keqb_spec (d, b) (u, v)) as [Z|Y2]; [right; left; apply REM; auto|]. destruct (keqb_spec (d, b) (v, u)) as [Z|Y2']; [right; right; apply REM; auto|].
    destruct (keqb_spec (a, d) (u, v)) as [Z|Y3]; [right; left; apply REM; auto|]. destruct (keqb_spec (a, d) (v, u)) as [Z|Y3']; [right; right; apply REM; auto|].
    destruct (keqb_spec (c, a) (u, v)) as [Z|Y4]; [right; left; apply REM; auto|]. destruct (keqb_spec (c, a) (v, u)) as [Z|Y4']; [right; right; apply REM; auto|].
    (* the flipped side: Delaunay now *)
    assert (FLAT : incircle (p_ d) (p_ c) (p_ a) (p_ b) < eps).
    { rewrite incircle_flip. apply isDelaunay_F in DE. unfold eps in *. lra. }
    assert (Aa : apex t0 d c a) by (split; apply (Permutation_in _ (Permutation_sym Q1)); cbn; auto).
    assert (Ab : apex t1 c d b) by (split; apply (Permutation_in _ (Permutation_sym Q3)); cbn; auto).
    destruct (keqb_spec (d, c) (u, v)) as [Z|Y5].
    { left. injection Z as <- <-.
      assert (j0 = i0). { rewrite E2 in L0'. destruct (keqb_spec (b, c) (d, c)); [congruence|]. destruct (keqb_spec (d, b) (d, c)); [congruence|]. destruct (keqb_spec (c, d) (d, c)); [congruence|].
        destruct (keqb_spec (a, d) (d, c)); [congruence|]. destruct (keqb_spec (c, a) (d, c)); [congruence|]. destruct (keqb_spec (d, c) (d, c)); [congruence|contradiction]. }
      assert (j1 = i1). { rewrite E2 in L1'. destruct (keqb_spec (b, c) (c, d)); [congruence|]. destruct (keqb_spec (d, b) (c, d)); [congruence|]. destruct (keqb_spec (c, d) (c, d)); [congruence|contradiction]. }
      subst j0 j1. rewrite T0 in A0, S0. rewrite T1 in A1, S1.
      assert (D0 : distinct3 t0) by (eapply distinct_perm; eauto). assert (D1 : distinct3 t1) by (eapply distinct_perm; eauto).
      rewrite (apex_unique _ _ _ c' a D0 S0 A0 Aa), (apex_unique _ _ _ d' b D1 S1 A1 Ab). apply isDelaunay_R. exact FLAT. }
    destruct (keqb_spec (d, c) (v, u)) as [Z|Y5'].
    { left. injection Z as <- <-.
      assert (j1 = i0). { rewrite E2 in L1'. destruct (keqb_spec (b, c) (d, c)); [congruence|]. destruct (keqb_spec (d, b) (d, c)); [congruence|]. destruct (keqb_spec (c, d) (d, c)); [congruence|].
        destruct (keqb_spec (a, d) (d, c)); [congruence|]. destruct (keqb_spec (c, a) (d, c)); [congruence|]. destruct (keqb_spec (d, c) (d, c)); [congruence|contradiction]. }
      assert (j0 = i1). { rewrite E2 in L0'. destruct (keqb_spec (b, c) (c, d)); [congruence|]. destruct (keqb_spec (d, b) (c, d)); [congruence|]. destruct (keqb_spec (c, d) (c, d)); [congruence|contradiction]. }
      subst j0 j1. rewrite T1 in A0, S0. rewrite T0 in A1, S1.
      assert (D0 : distinct3 t0) by (eapply distinct_perm; eauto). assert (D1 : distinct3 t1) by (eapply distinct_perm; eauto).
      rewrite (apex_unique _ _ _ c' b D1 S0 A0 Ab), (apex_unique _ _ _ d' a D0 S1 A1 Aa), del_sym. apply isDelaunay_R. exact FLAT. }
    (* all other sides keep their triangles *)
    assert (OLD : forall x y j, (x, y) = (u, v) \/ (x, y) = (v, u) -> flookup st' (x, y) = Some j ->
        flookup st (x, y) = Some j /\ nth j (ftris st') NT = nth j (ftris st) NT /\ (x, y) <> (a, b)).
    { intros x y j XY L. rewrite E2 in L.
      destruct (keqb_spec (b, c) (x, y)) as [W|]; [destruct XY; congruence|]. destruct (keqb_spec (d, b) (x, y)) as [W|]; [destruct XY; congruence|].
      destruct (keqb_spec (c, d) (x, y)) as [W|]. { exfalso. injection W as <- <-. destruct XY as [W|W]; injection W as <- <-; [apply Y5'|apply Y5]; reflexivity. }
      destruct (keqb_spec (a, d) (x, y)) as [W|]; [destruct XY; congruence|]. destruct (keqb_spec (c, a) (x, y)) as [W|]; [destruct XY; congruence|].
      destruct (keqb_spec (d, c) (x, y)) as [W|]; [destruct XY; congruence|].
      destruct (keqb_spec (b, a) (x, y)) as [W|W1]; [discriminate|]. destruct (keqb_spec (a, b) (x, y)) as [W|W2]; [discriminate|].
      split; [exact L|]. split; [|congruence]. destruct (LS _ _ L) as [BJ SJ]. rewrite E1, nth_upd.
      destruct (Nat.eqb_spec j i1) as [->|Z1]. { exfalso. apply (Permutation_in _ P1) in SJ. cbn in SJ. destruct SJ as [S|[S|[S|[]]]]; congruence. }
      cbn. rewrite nth_upd. destruct (Nat.eqb_spec j i0) as [->|Z0]. { exfalso. apply (Permutation_in _ P0) in SJ. cbn in SJ. destruct SJ as [S|[S|[S|[]]]]; congruence. }
      reflexivity. }
    destruct (OLD u v j0 (or_introl eq_refl) L0') as (O1 & O2 & O3). destruct (OLD v u j1 (or_intror eq_refl) L1') as (O4 & O5 & O6).
    rewrite O2 in A0. rewrite O5 in A1. destruct (H u v j0 j1 c' d' O1 O4 A0 A1) as [K|[K|K]]; [auto| |].
    + right; left. apply REM. right; right; right; right. apply sremove_in; auto.
    + right; right. apply REM. right; right; right; right. apply sremove_in; auto.
Qed.
(* every side of every triangle is in the table, pointing to its triangle *)
Definition complete (st : fstate) : Prop := forall i e, (i < length (ftris st))%nat -> In e (tri_sides (nth i (ftris st) NT)) -> flookup st e = Some i.
Definition one_owner (ts : list itri) : Prop := forall i j e, (i < length ts)%nat -> (j < length ts)%nat ->
  In e (tri_sides (nth i ts NT)) -> In e (tri_sides (nth j ts NT)) -> i = j.
Lemma effect_complete st k st' : effect pts k st st' -> complete st -> one_owner (ftris st') -> complete st'.
Proof.
  intros E H O. destruct E as [E1 E2 E3 _|a b c d i0 i1 t0 t1 -> L0 L1 NE B0 B1 N1 N2 N3 N4 N5 P0 P1 DE Q1 Q2 Q3 Q4 E1 E2 E3].
  - intros i e. rewrite E1, E2. apply H.
  - assert (CD : c <> d) by (intros <-; rewrite same_apex_R in DE; discriminate).
    assert (T0 : nth i0 (ftris st') NT = t0).
    { rewrite E1, nth_upd, (proj2 (Nat.eqb_neq i0 i1)) by auto. cbn. rewrite nth_upd, Nat.eqb_refl, (proj2 (Nat.ltb_lt _ _)) by auto. reflexivity. }
    assert (T1 : nth i1 (ftris st') NT = t1).
    { rewrite E1, nth_upd, Nat.eqb_refl, (proj2 (Nat.ltb_lt _ _)) by (rewrite upd_length; auto). reflexivity. }
    assert (LN : length (ftris st') = length (ftris st)) by (rewrite E1, !upd_length; reflexivity).
    intros i e Li He. rewrite E2.
    assert (OWN0 : In e (tri_sides t0) -> i = i0). { intros K. apply (O i i0 e); [lia|lia|exact He|rewrite T0; exact K]. }
    assert (OWN1 : In e (tri_sides t1) -> i = i1). { intros K. apply (O i i1 e); [lia|lia|exact He|rewrite T1; exact K]. }
    assert (I0 : forall f, In f [(a, d); (d, c); (c, a)] -> f = e -> i = i0) by (intros f Hf <-; apply OWN0, (Permutation_in _ (Permutation_sym Q1)), Hf).
    assert (I1 : forall f, In f [(b, c); (c, d); (d, b)] -> f = e -> i = i1) by (intros f Hf <-; apply OWN1, (Permutation_in _ (Permutation_sym Q3)), Hf).
    destruct (keqb_spec (b, c) e) as [Z|Z1]; [f_equal; symmetry; apply (I1 _ (or_introl eq_refl) Z)|].
    destruct (keqb_spec (d, b) e) as [Z|Z2]; [f_equal; symmetry; apply (I1 _ (or_intror (or_intror (or_introl eq_refl))) Z)|].
    destruct (keqb_spec (c, d) e) as [Z|Z3]; [f_equal; symmetry; apply (I1 _ (or_intror (or_introl eq_refl)) Z)|].
    destruct (keqb_spec (a, d) e) as [Z|Z4]; [f_equal; symmetry; apply (I0 _ (or_introl eq_refl) Z)|].
    destruct (keqb_spec (c, a) e) as [Z|Z5]; [f_equal; symmetry; apply (I0 _ (or_intror (or_intror (or_introl eq_refl))) Z)|].
    destruct (keqb_spec (d, c) e) as [Z|Z6]; [f_equal; symmetry; apply (I0 _ (or_intror (or_introl eq_refl)) Z)|].
    assert (ZI1 : i <> i1). { intros ->. rewrite T1 in He. apply (Permutation_in _ Q3) in He. cbn in He. destruct He as [S|[S|[S|[]]]]; congruence. }
    assert (ZI0 : i <> i0). { intros ->. rewrite T0 in He. apply (Permutation_in _ Q1) in He. cbn in He. destruct He as [S|[S|[S|[]]]]; congruence. }
    assert (SAME : nth i (ftris st') NT = nth i (ftris st) NT).
    { rewrite E1, nth_upd, (proj2 (Nat.eqb_neq i i1)) by auto. cbn. rewrite nth_upd, (proj2 (Nat.eqb_neq i i0)) by auto. reflexivity. }
    rewrite SAME in He. rewrite LN in Li. pose proof (H i e Li He) as G.
    destruct (keqb_spec (b, a) e) as [<-|]; [congruence|]. destruct (keqb_spec (a, b) e) as [<-|]; [congruence|]. exact G.
Qed.
Lemma init_complete ts : one_owner ts -> complete (flipInit ts).
Proof.
  intros O i e Li He. cbn [flipInit ftris flookup] in *.
  assert (G : forall l n d, (forall j, (j < length l)%nat -> In e (tri_sides (nth j l NT)) -> exists r, initLookup l n d e = Some r)).
  { clear. induction l as [|t l IH]; intros n d j Lj Hj; [cbn in Lj; lia|]. cbn [initLookup].
    assert (MONO : forall l n d r, d e = Some r -> exists r', initLookup l n d e = Some r').
    { clear. induction l as [|t l IH]; intros n d r H; [eauto|]. cbn [initLookup].
      assert (K : forall ks d r, d e = Some r -> exists r', fold_left (fun d k => dset d k n) ks d e = Some r').
      { clear. induction ks as [|k ks IH]; intros d r H; [eauto|]. cbn. destruct (keqb_spec k e) as [<-|NE].
        - apply (IH _ n). unfold dset. destruct (keqb_spec k k); [reflexivity|contradiction].
        - apply (IH _ r). unfold dset. destruct (keqb_spec k e); [contradiction|exact H]. }
      destruct (K (t3keys t) d r H) as (r' & H'). eapply IH. exact H'. }
    destruct j as [|j].
    - cbn [nth] in Hj. apply (Permutation_in _ (Permutation_sym (t3keys_sides t))) in Hj.
      assert (K : forall ks d, In e ks -> exists r, fold_left (fun d k => dset d k n) ks d e = Some r).
      { clear. induction ks as [|k ks IH]; intros d HI; [destruct HI|]. destruct HI as [->|H].
        - cbn. assert (MM : forall ks d r, d e = Some r -> exists r', fold_left (fun d k => dset d k n) ks d e = Some r').
          { clear. induction ks as [|k ks IH]; intros d r H; [eauto|]. cbn. destruct (keqb_spec k e) as [<-|NE].
            - apply (IH _ n). unfold dset. destruct (keqb_spec k k); [reflexivity|contradiction].
            - apply (IH _ r). unfold dset. destruct (keqb_spec k e); [contradiction|exact H]. }
          apply (MM _ _ n). unfold dset. destruct (keqb_spec e e); [reflexivity|contradiction].
        - cbn. apply IH, H. }
      destruct (K _ d Hj) as (r & Hr). eapply MONO. exact Hr.
    - cbn in Lj. apply (IH _ _ j); [lia|exact Hj]. }
  destruct (G ts 0%nat (fun _ => None) i Li He) as (r & Hr). rewrite Hr.
  apply initLookup_spec in Hr. destruct Hr as [Hr|[R1 R2]]; [discriminate|]. rewrite Nat.sub_0_r in R2. f_equal. apply (O r i e); auto; lia.
Qed.
Lemma init_waiting ts : waiting (flipInit ts).
Proof.
  intros u v i0 i1 c d L0 L1 _ _. right. left. cbn [flipInit flookup frem] in *.
  apply initLookup_spec in L0. destruct L0 as [L0|[R1 R2]]; [discriminate|]. rewrite Nat.sub_0_r in R2.
  assert (I : In (u, v) (concat (map t3keys ts))).
  { apply in_concat. exists (t3keys (nth i0 ts NT)). split; [apply in_map, nth_In; lia|]. apply (Permutation_in _ (Permutation_sym (t3keys_sides _))), R2. }
  assert (G : forall ks acc, In (u, v) ks \/ In (u, v) acc -> In (u, v) (fold_left (fun s k => sadd k s) ks acc)).
  { clear. induction ks as [|k ks IH]; intros acc HI; [destruct HI as [[]|H]; exact H|]. cbn. apply IH. rewrite sadd_in. destruct HI as [[->|H]|H]; auto. }
  apply G. auto.
Qed.

(** ** the run as a whole *)
Theorem flip_run fuel sched ts r : (forall t, In t ts -> distinct3 t) -> (forall t, In t ts -> 0 <= area2 pts t) ->
  flipTriangles fuel sched pts ts = Ok r ->
  (forall t, In t r -> 0 <= area2 pts t) /\ (forall x, winding pts (mesh_sides r) x = winding pts (mesh_sides ts) x) /\
  (no_overlap pts ts -> no_overlap pts r).
Proof.
  intros D C H. unfold flipTriangles in H.
  apply (flipLoop_inv pts (same_apex_R pts) (fun st => (forall t, In t (ftris st) -> 0 <= area2 pts t) /\ (forall x, winding pts (mesh_sides (ftris st)) x = winding pts (mesh_sides ts) x))) in H.
  - destruct H as (st & <- & _ & _ & K1 & K2). split; [exact K1|]. split; [exact K2|]. intros NO. apply (overlap_transfer ts (ftris st)); auto.
  - intros st k st' _ _ (Q1 & Q2) E. split; [eapply effect_ccw; eauto|]. intros x. rewrite (effect_winding pts _ _ _ x E). apply Q2.
  - apply flipInit_sound, D.
  - split; [exact C|reflexivity].
Qed.
Theorem flip_delaunay fuel sched ts r : (forall t, In t ts -> distinct3 t) -> (forall t, In t ts -> 0 < area2 pts t) -> no_overlap pts ts ->
  flipTriangles fuel sched pts ts = Ok r ->
  (forall t, In t r -> 0 < area2 pts t) /\ no_overlap pts r /\
  (forall t0 t1 a b c d, In t0 r -> In t1 r -> Permutation (tri_sides t0) [(a, b); (b, c); (c, a)] -> Permutation (tri_sides t1) [(b, a); (a, d); (d, b)] ->
     incircle (p_ a) (p_ b) (p_ c) (p_ d) < eps).
Proof.
  intros D C NO H. unfold flipTriangles in H.
  apply (flipLoop_inv pts (same_apex_R pts) (fun st => ((forall t, In t (ftris st) -> 0 < area2 pts t) /\ (forall x, winding pts (mesh_sides (ftris st)) x = winding pts (mesh_sides ts) x)) /\
      waiting st /\ complete st)) in H.
  - destruct H as (st & <- & RE & [DT LS] & (K1 & K2) & K3 & K4). split; [exact K1|]. split.
    { apply (overlap_transfer ts (ftris st)); auto; intros; apply Rlt_le; auto. }
    intros t0 t1 a b c d I0 I1 P0 P1. destruct (In_nth _ _ NT I0) as (i0 & B0 & T0). destruct (In_nth _ _ NT I1) as (i1 & B1 & T1).
    assert (S0 : forall e, In e [(a, b); (b, c); (c, a)] -> In e (tri_sides (nth i0 (ftris st) NT))) by (intros e He; rewrite T0; apply (Permutation_in _ (Permutation_sym P0)), He).
    assert (S1 : forall e, In e [(b, a); (a, d); (d, b)] -> In e (tri_sides (nth i1 (ftris st) NT))) by (intros e He; rewrite T1; apply (Permutation_in _ (Permutation_sym P1)), He).
    apply isDelaunay_R. destruct (K3 a b i0 i1 c d) as [K|[K|K]]; [| | | |exact K| |].
    + apply K4; [exact B0|apply S0; cbn; auto].
    + apply K4; [exact B1|apply S1; cbn; auto].
    + split; apply S0; cbn; auto.
    + split; apply S1; cbn; auto.
    + rewrite RE in K. destruct K.
    + rewrite RE in K. destruct K.
  - intros st k st' _ V ((Q1 & Q2) & Q3 & Q4) E. assert (V' : sound st') by (eapply flip_sound; eauto; intros; apply same_apex_R).
    assert (Q1' : forall t, In t (ftris st') -> 0 < area2 pts t) by (eapply effect_ccw_strict; eauto).
    assert (Q2' : forall x, winding pts (mesh_sides (ftris st')) x = winding pts (mesh_sides ts) x) by (intros x; rewrite (effect_winding pts _ _ _ x E); apply Q2).
    split; [auto|]. split; [apply (effect_waiting st k); auto|]. apply (effect_complete st k); [exact E|exact Q4|].
    intros i j e. apply no_overlap_sides; [apply V'|exact Q1'|]. apply (overlap_transfer ts (ftris st')); auto; intros; apply Rlt_le; auto.
  - apply flipInit_sound, D.
  - split; [split; [exact C|reflexivity]|]. split; [apply init_waiting|]. apply init_complete. intros i j e. apply no_overlap_sides; auto.
Qed.
End Del.
