(** Proofs for the switch holes (C87). *)
From Coq Require Import Reals Lra ZArith List Bool Permutation.
From Verif Require Import Num GeoModel EdgeModel EdgeSpec EdgeMesh GeoSpec GeoMat MeshModel KeyModel ArcModel ArcProof LayoutProof BossProof SwitchSpec.
Import ListNotations.
Open Scope R_scope.

Lemma strip_all (A : pt -> Prop) (s o : list pt) cl ts : meshPairwise s o cl = Ok ts -> Forall A s -> Forall A o -> Forall (all3 A) ts.
Proof.
  intros H HS HO. apply Forall_forall. intros t Ht. rewrite Forall_forall in HS, HO.
  assert (G : forall v, In v (corners t) -> A v) by (intros v Hv; destruct (pairwise_vertices s o cl ts H t Ht v Hv); auto).
  unfold corners in G. repeat split; apply G; cbn; auto.
Qed.
Lemma both3 (A B : pt -> Prop) t : all3 A t -> all3 B t -> all3 (fun p => A p /\ B p) t.
Proof. unfold all3. tauto. Qed.

Section K.
Variable fill : list pt -> list (list pt) -> res (list (@tri Rnum)).
Variable c : @key_cfg Rnum.
Let w : R := holeW c.
Let d : R := holeD c.
Let h : R := holeHeight c.
Let e : R := entryChamfer c.

Hypothesis He : 0 <= e <= h.
Hypothesis Hc : forall k, clipNotch c = Some k -> 0 <= clipDepth k /\ 0 <= clipHeight k.

Definition lefty (p : pt) : Prop := X p <= - (w / 2) /\ within (- h) 0 p.
Definition backy (p : pt) : Prop := d / 2 <= Y p /\ within (- h) 0 p.

Lemma exit_is : exitEdge c = [P (- w / 2) (- d / 2) (- h); P (- w / 2) (- d / 2) (- h); P (- w / 2) (- (- d / 2)) (- h); P (- w / 2) (- (- d / 2)) (- h)].
Proof. reflexivity. Qed.
Lemma chamfer_is : chamferEdge c = [P (- w / 2) (- d / 2) (- e); P (- w / 2) (- d / 2) (- e); P (- w / 2) (- (- d / 2)) (- e); P (- w / 2) (- (- d / 2)) (- e)].
Proof. reflexivity. Qed.
Lemma entry_is : entryEdge c = [P (- w / 2) (- d / 2 - e) 0; P (- w / 2 - e) (- d / 2) 0; P (- w / 2 - e) (- (- d / 2)) 0; P (- w / 2) (- (- d / 2 - e)) 0].
Proof. reflexivity. Qed.
Ltac pts := repeat (apply Forall_cons; [|]); try apply Forall_nil; unfold lefty, backy, within, X, Y, Z, P; cbn [vx vy vz]; split; try split; lra.
Lemma left_all ts : eval fill (leftMesh c) = Ok ts -> Forall (all3 lefty) ts.
Proof.
  unfold leftMesh. cbn [eval]. intros H. apply bind_ok in H. destruct H as (a & Ha & H). apply bind_ok in H. destruct H as (b & Hb & H). apply Ok_inj in H. subst ts.
  rewrite exit_is, chamfer_is in Ha. rewrite chamfer_is, entry_is in Hb.
  apply Forall_app. split; [eapply strip_all; [exact Ha|..]|eapply strip_all; [exact Hb|..]]; pts.
Qed.
Lemma back_all m ex ts : backMesh c = Ok (m, ex) -> eval fill m = Ok ts -> Forall (all3 backy) ts.
Proof.
  unfold backMesh. rewrite exit_is, chamfer_is, entry_is. destruct (hasClip c) as [k|] eqn:HK.
  - unfold hasClip in HK. destruct (clipNotch c) as [k'|] eqn:CN; [|discriminate]. destruct (nltb (clipHeight k') (holeHeight c)) eqn:L; [|discriminate]. injection HK as ->.
    change (Rltb (clipHeight k) h = true) in L. apply Rltb_true in L. destruct (Hc k eq_refl) as (C1 & C2).
    intros H. apply bind_ok in H. destruct H as (g & Hg & H). cbv zeta in H. apply Ok_inj, (@f_equal _ _ fst) in H. cbn [fst] in H. subst m.
    unfold clipEdgeG in Hg. apply bind_ok in Hg. destruct Hg as (t & Ht & Hg). cbv zeta in Hg. apply Ok_inj in Hg. subst g. clear Ht.
    set (ct := nmul t (nsin (clipTaperAngle k))) in *. clearbody ct. clear t.
    match goal with |- context [clipEdgeT c k ?g] => change g with [P (- clipWidth k / 2) (d / 2) (- h); P (- clipWidth k / 2 + ct) (d / 2 + clipDepth k) (- h); P (clipWidth k / 2 - ct) (d / 2 + clipDepth k) (- h); P (clipWidth k / 2) (d / 2) (- h)] end.
    match goal with |- context [clipEdgeT c k ?g] => change (clipEdgeT c k g) with [P (- clipWidth k / 2 + 0) (d / 2 + 0) (- h + (h - clipHeight k)); P (- clipWidth k / 2 + ct + 0) (d / 2 + clipDepth k + 0) (- h + (h - clipHeight k)); P (clipWidth k / 2 - ct + 0) (d / 2 + clipDepth k + 0) (- h + (h - clipHeight k)); P (clipWidth k / 2 + 0) (d / 2 + 0) (- h + (h - clipHeight k))] end.
    cbn [eval meshes elast last nth app firstn skipn rev]. unfold vmirX, P. cbn [vx vy vz].
    intros H. apply bind_ok in H. destruct H as (a1 & Ha1 & H). apply bind_ok in H. destruct H as (r1 & Hr1 & H). apply Ok_inj in H. subst ts.
    apply bind_ok in Hr1. destruct Hr1 as (a2 & Ha2 & H). apply bind_ok in H. destruct H as (r2 & Hr2 & H). apply Ok_inj in H. subst r1.
    apply bind_ok in Hr2. destruct Hr2 as (a3 & Ha3 & H). apply bind_ok in H. destruct H as (r3 & Hr3 & H). apply Ok_inj in H. subst r2.
    apply bind_ok in Hr3. destruct Hr3 as (a4 & Ha4 & H). apply bind_ok in H. destruct H as (r4 & Hr4 & H). apply Ok_inj in H. subst r3.
    apply Ok_inj in Hr4. subst r4.
    repeat (apply Forall_app; split); [eapply strip_all; [exact Ha1|..]|eapply strip_all; [exact Ha2|..]|eapply strip_all; [exact Ha3|..]|eapply strip_all; [exact Ha4|..]|apply Forall_nil]; pts.
  - intros H. apply Ok_inj, (@f_equal _ _ fst) in H. cbn [fst] in H. subst m. cbn [eval elast last emirX map]. unfold vmirX, P. cbn [vx vy vz]. intros H. eapply strip_all; [exact H|..]; pts.
Qed.
Lemma base_all m ex ts : backMesh c = Ok (m, ex) -> eval fill (Plus (leftMesh c) m) = Ok ts -> Forall (fun t => all3 lefty t \/ all3 backy t) ts.
Proof.
  intros Hb H. cbn [eval] in H. apply bind_ok in H. destruct H as (a & Ha & H). apply bind_ok in H. destruct H as (b & Hb' & H). apply Ok_inj in H. subst ts.
  apply left_all in Ha. apply (back_all _ _ _ Hb) in Hb'.
  apply Forall_app. split; [eapply Forall_impl; [|exact Ha]|eapply Forall_impl; [|exact Hb']]; intros t Ht; cbv beta; tauto.
Qed.
Lemma turn_is (p : pt) : turnAround p = half_turn p.
Proof. reflexivity. Qed.
Lemma all_all m ex ts : backMesh c = Ok (m, ex) -> eval fill (Plus (Plus (leftMesh c) m) (Moved turnAround (Plus (leftMesh c) m))) = Ok ts ->
  Forall (fun t => outside_opening w d t /\ all3 (within (- h) 0) t) ts.
Proof.
  intros Hb H. remember (Plus (leftMesh c) m) as base eqn:EB. cbn [eval] in H. apply bind_ok in H. destruct H as (a & Ha & H). apply bind_ok in H. destruct H as (b & Hb' & H). apply Ok_inj in H. subst ts.
  rewrite Ha in Hb'. cbn [bind] in Hb'. apply Ok_inj in Hb'. subst b base. apply (base_all _ _ _ Hb) in Ha.
  apply Forall_app. split.
  - eapply Forall_impl; [|exact Ha]. cbn. unfold outside_opening, all3, lefty, backy. tauto.
  - apply Forall_map. eapply Forall_impl; [|exact Ha]. intros [ta tb tc]. unfold outside_opening, all3, lefty, backy, within, tmap. cbn [GeoModel.ta GeoModel.tb GeoModel.tc]. change (@turnAround Rnum) with half_turn.
    unfold half_turn. intros [((A1 & A2) & (B1 & B2) & (C1 & C2))|((A1 & A2) & (B1 & B2) & (C1 & C2))].
    + split; [right; left|]; unfold X, Y, Z, P in *; cbn [vx vy vz]; repeat split; lra.
    + split; [right; right; left|]; unfold X, Y, Z, P in *; cbn [vx vy vz]; repeat split; lra.
Qed.
End K.

Lemma quarter_is (p : pt) : transformed p (mrotZ mid (ndiv tau (nZ 4)) None) = quarter_turn p.
Proof.
  rewrite turned_pt. unfold tau. rn. replace (2 * PI / 4) with (PI / 2) by lra. rewrite cos_PI2, sin_PI2. unfold quarter_turn.
  assert (A : forall x y : R, x * 0 - y * 1 = - y) by (intros; ring). assert (B : forall x y : R, x * 1 + y * 0 = x) by (intros; ring). rewrite A, B. reflexivity.
Qed.
Lemma quarters (l : list pt) : etransformed l (mrotZ mid (ndiv tau (nZ 4)) None) = map quarter_turn l.
Proof. unfold etransformed. apply map_ext. exact quarter_is. Qed.

Section Fac.
Variable c : @key_cfg Rnum.
Let sideways : bool := isSideways c.
Lemma widths : holeW c = (if sideways then switchDepth c else switchWidth c) /\ holeD c = (if sideways then switchWidth c else switchDepth c).
Proof. split; reflexivity. Qed.

Lemma factory_mesh fill fac ts : keyFactory c = Ok fac -> 0 <= entryChamfer c <= holeHeight c ->
  (forall k, clipNotch c = Some k -> 0 <= clipDepth k /\ 0 <= clipHeight k) -> eval fill (fMesh fac) = Ok ts ->
  Forall (fun t => outside_opening (switchWidth c) (switchDepth c) t /\ all3 (within (- holeHeight c) 0) t) ts.
Proof.
  intros H He Hc. unfold keyFactory in H. apply bind_ok in H. destruct H as ((m & ex) & Hb & H). cbv zeta in H. cbn [fst snd] in H.
  destruct widths as (W & D). destruct (isSideways c) eqn:S; apply Ok_inj in H; subst fac; cbn [fMesh].
  - intros H. remember (Plus (Plus (leftMesh c) m) (Moved turnAround (Plus (leftMesh c) m))) as all eqn:EA. cbn [eval] in H. apply bind_ok in H. destruct H as (a & Ha & H). apply Ok_inj in H. subst ts all.
    apply (all_all fill c He Hc _ _ _ Hb) in Ha. apply Forall_map. eapply Forall_impl; [|exact Ha]. unfold sideways in *. rewrite W, D.
    intros [ta tb tc]. unfold tmap, outside_opening, all3, within. cbn [GeoModel.ta GeoModel.tb GeoModel.tc]. rewrite (quarter_is ta), (quarter_is tb), (quarter_is tc).
    unfold quarter_turn, X, Y, Z, P. cbn [vx vy vz]. intros ([A|[A|[A|A]]] & (B1 & B2 & B3)).
    + split; [|repeat split; lra]. right; right; left. lra.
    + split; [|repeat split; lra]. right; right; right. lra.
    + split; [|repeat split; lra]. right; left. lra.
    + split; [|repeat split; lra]. left. lra.
  - intros H. apply (all_all fill c He Hc _ _ _ Hb) in H. unfold sideways in *. rewrite W, D in H. exact H.
Qed.
End Fac.

(** ** outlines *)
Lemma seg_far (t : R) (a b : pt) : (t <= X a - X b \/ t <= X b - X a \/ t <= Y a - Y b \/ t <= Y b - Y a) -> nleb (Num := Rnum) t (smag (mkSeg a b)) = true.
Proof.
  intros H. apply Rleb_true. unfold smag, vmag, vsub. cbn [sa sb vx vy vz]. rn. change (vx a) with (X a). change (vx b) with (X b). change (vy a) with (Y a). change (vy b) with (Y b).
  change (vz a) with (Z a). change (vz b) with (Z b). revert H. generalize (X a), (X b), (Y a), (Y b), (Z a), (Z b). clear. intros xa xb ya yb za zb H.
  destruct (Rle_dec t 0) as [L|L]; [eapply Rle_trans; [exact L|apply sqrt_pos]|]. rewrite <- (sqrt_Rsqr t) by lra. apply sqrt_le_1_alt. unfold Rsqr.
  pose proof (Rle_0_sqr (xb - xa)) as Q1. pose proof (Rle_0_sqr (yb - ya)) as Q2. pose proof (Rle_0_sqr (zb - za)) as Q3. unfold Rsqr in *.
  assert (G : forall u : R, t <= u \/ t <= - u -> t * t <= u * u). { intros u [U|U]; [apply Rmult_le_compat; lra|]. replace (u * u) with ((- u) * (- u)) by ring. apply Rmult_le_compat; lra. }
  destruct H as [H|[H|[H|H]]].
  - specialize (G (xb - xa) ltac:(lra)). lra.
  - specialize (G (xb - xa) ltac:(lra)). lra.
  - specialize (G (yb - ya) ltac:(lra)). lra.
  - specialize (G (yb - ya) ltac:(lra)). lra.
Qed.
Lemma seg_same (t : R) (a : pt) : 0 < t -> nleb (Num := Rnum) t (smag (mkSeg a a)) = false.
Proof.
  intros H. apply Rleb_false. unfold smag, vmag, vsub. cbn [sa sb vx vy vz]. rn.
  replace ((vx a - vx a) * (vx a - vx a) + (vy a - vy a) * (vy a - vy a) + (vz a - vz a) * (vz a - vz a)) with 0.
  - rewrite sqrt_0. exact H.
  - change (vx a) with (X a). change (vy a) with (Y a). change (vz a) with (Z a). generalize (X a), (Y a), (Z a). intros; ring.
Qed.
Lemma coll2 (t : R) (p p' : pt) : 0 < t -> (t <= Y p' - Y p \/ t <= Y p - Y p') -> @collapsed Rnum [p; p; p'; p'] t = [p; p'].
Proof.
  intros T H. unfold collapsed. cbn [toSegments segs_open last app filter]. rewrite (seg_same t p T), (seg_same t p' T), !seg_far by tauto. reflexivity.
Qed.
Lemma coll4 (t : R) (a b c d : pt) : nleb (Num := Rnum) t (smag (mkSeg a b)) = true -> nleb (Num := Rnum) t (smag (mkSeg b c)) = true -> nleb (Num := Rnum) t (smag (mkSeg c d)) = true ->
  nleb (Num := Rnum) t (smag (mkSeg d a)) = true -> @collapsed Rnum [a; b; c; d] t = [a; b; c; d].
Proof. intros A B C D. unfold collapsed. cbn [toSegments segs_open last app filter]. rewrite A, B, C, D. reflexivity. Qed.
Lemma coll8 (t : R) (p p' a b c d : pt) : 0 < t -> nleb (Num := Rnum) t (smag (mkSeg p p')) = true -> nleb (Num := Rnum) t (smag (mkSeg p' a)) = true ->
  nleb (Num := Rnum) t (smag (mkSeg a b)) = true -> nleb (Num := Rnum) t (smag (mkSeg b c)) = true -> nleb (Num := Rnum) t (smag (mkSeg c d)) = true ->
  nleb (Num := Rnum) t (smag (mkSeg d p)) = true -> @collapsed Rnum ([p; p; p'; p'] ++ [a; b; c; d]) t = [p; p'; a; b; c; d].
Proof. intros T A B C D E F. unfold collapsed. cbn [toSegments segs_open last app filter]. rewrite (seg_same t p T), (seg_same t p' T), A, B, C, D, E, F. reflexivity. Qed.

Section Out.
Variable c : @key_cfg Rnum.
Let w : R := holeW c.
Let d : R := holeD c.
Let h : R := holeHeight c.
Let e : R := entryChamfer c.
Let mm : R := 1 / 1000.
Lemma mm_is : nQ 1 1000 = mm. Proof. reflexivity. Qed.
Lemma list_ext2 (l l' : list pt) : Forall2 (fun p q => X p = X q /\ Y p = Y q /\ Z p = Z q) l l' -> l = l'.
Proof. intros H. induction H as [|p q l l' (A & B & C) _ IH]; [reflexivity|]. f_equal; [apply pt_ext; assumption|exact IH]. Qed.
Ltac far := apply seg_far; unfold X, Y, P; cbn [vx vy]; lra.
Ltac sames := apply list_ext2; repeat (apply Forall2_cons); try apply Forall2_nil; unfold X, Y, Z, P; cbn [vx vy vz]; repeat split; lra.

Lemma entry_out : mm <= w -> mm <= d -> mm <= e -> let l := collapsed (entryEdge c) (nQ 1 1000) in l ++ map turnAround l = flared w d e 0.
Proof.
  intros W D E. cbv zeta. rewrite mm_is, (entry_is c). fold w d e. assert (0 < mm) by (unfold mm; lra). rewrite coll4; [|far..].
  unfold flared. change (@turnAround Rnum) with half_turn. cbn [map app]. unfold half_turn. sames.
Qed.
Lemma exit_plain : mm <= d -> let l := rev (collapsed (exitEdge c) (nQ 1 1000)) in l ++ map turnAround l = rectangle w d (- h).
Proof.
  intros D. cbv zeta. rewrite mm_is, (exit_is c). fold w d h. assert (0 < mm) by (unfold mm; lra). rewrite coll2; [|assumption|unfold X, Y, P; cbn [vx vy]; lra].
  unfold rectangle. change (@turnAround Rnum) with half_turn. cbn [map app rev]. unfold half_turn. sames.
Qed.
Lemma exit_notched k g : clipEdgeG c k = Ok g -> let ct := clipDepth k * (sin (clipTaperAngle k) / cos (clipTaperAngle k)) in
  mm <= d -> mm <= clipDepth k -> mm <= (w - clipWidth k) / 2 -> mm <= clipWidth k - 2 * ct ->
  let l := rev (collapsed (exitEdge c ++ g) (nQ 1 1000)) in l ++ map turnAround l = notched w d (clipWidth k) (clipDepth k) ct (- h).
Proof.
  intros Hg ct D CD CW CT. cbv zeta. unfold clipEdgeG in Hg. apply bind_ok in Hg. destruct Hg as (t & Ht & Hg). cbv zeta in Hg. apply Ok_inj in Hg. apply pdiv_ok in Ht. destruct Ht as (C0 & ->).
  match type of Hg with context [@nmul Rnum ?a (@nsin Rnum ?b)] => replace (@nmul Rnum a (@nsin Rnum b)) with ct in Hg by (unfold ct; cbn [nmul nsin Rnum]; change (@ncos Rnum) with cos in *; field; exact C0) end.
  clearbody ct. subst g.
  match goal with |- context [exitEdge c ++ ?g] => change g with [P (- clipWidth k / 2) (d / 2) (- h); P (- clipWidth k / 2 + ct) (d / 2 + clipDepth k) (- h); P (clipWidth k / 2 - ct) (d / 2 + clipDepth k) (- h); P (clipWidth k / 2) (d / 2) (- h)] end.
  rewrite mm_is, (exit_is c). fold w d h. assert (0 < mm) by (unfold mm; lra). rewrite coll8; [|assumption|far..].
  unfold notched. change (@turnAround Rnum) with half_turn. cbn [map app rev]. unfold half_turn. sames.
Qed.
Lemma perm_321 {A} (a b c' d' : A) : Permutation [c'; b; a; d'] [a; b; c'; d'].
Proof. apply Permutation_sym. apply (Permutation_app_tail [d'] (l := [a; b; c']) (l' := [c'; b; a])). apply (Permutation_rev [a; b; c']). Qed.
Lemma bounds_O fac : keyFactory c = Ok fac -> Permutation (fBoundsO fac) (rectangle (switchWidth c + 2 * outerMargin c) (switchDepth c + 2 * outerMargin c) 0).
Proof.
  intros H. unfold keyFactory in H. apply bind_ok in H. destruct H as ((m & ex) & Hb & H). cbv zeta in H.
  pose proof (widths c) as (W & D). destruct (isSideways c) eqn:S; rewrite ?S in W, D; apply Ok_inj in H; subst fac; cbn [fBoundsO].
  - rewrite quarters. unfold factoryBoundsO, holeL, holeR, holeF, holeB. rewrite W, D. cbn [map].
    match goal with |- Permutation ?l ?r => replace l with ([nth 2 r origin; nth 1 r origin; nth 0 r origin; nth 3 r origin]) end; [|unfold rectangle; cbn [skipn nth app]; rn; unfold quarter_turn; sames].
    unfold rectangle. cbn [nth]. apply perm_321.
  - match goal with |- Permutation ?l ?r => replace l with ([nth 1 r origin; nth 0 r origin; nth 3 r origin; nth 2 r origin]) end;
      [|unfold factoryBoundsO, holeL, holeR, holeF, holeB; rewrite W, D; unfold rectangle; cbn [skipn nth app rev]; rn; sames].
    unfold rectangle. cbn [nth]. eapply perm_trans; [apply Permutation.perm_swap|]. do 2 apply perm_skip. apply Permutation.perm_swap.
Qed.
Lemma bounds_I fac : keyFactory c = Ok fac ->
  Permutation (fBoundsI fac) (rectangle (switchWidth c + 2 * innerMargin c) (switchDepth c + 2 * innerMargin c) (- holeHeight c) ++ rectangle (switchWidth c) (switchDepth c) (- innerHeight c - pinHeight c)).
Proof.
  intros H. unfold keyFactory in H. apply bind_ok in H. destruct H as ((m & ex) & Hb & H). cbv zeta in H.
  pose proof (widths c) as (W & D). destruct (isSideways c) eqn:S; rewrite ?S in W, D; apply Ok_inj in H; subst fac; cbn [fBoundsI].
  - rewrite quarters. unfold factoryBoundsI, holeL, holeR, holeF, holeB. rewrite W, D. cbn [map].
    match goal with |- Permutation ?l (?r ++ ?r') => replace l with ([nth 2 r origin; nth 1 r origin; nth 0 r origin; nth 3 r origin] ++ [nth 2 r' origin; nth 1 r' origin; nth 0 r' origin; nth 3 r' origin]) end;
      [|unfold rectangle; cbn [skipn nth app]; rn; unfold quarter_turn; sames].
    unfold rectangle. cbn [nth]. apply Permutation_app; apply perm_321.
  - match goal with |- Permutation ?l (?r ++ ?r') => replace l with ([nth 1 r origin; nth 0 r origin; nth 3 r origin; nth 2 r origin] ++ [nth 1 r' origin; nth 0 r' origin; nth 3 r' origin; nth 2 r' origin]) end;
      [|unfold factoryBoundsI, holeL, holeR, holeF, holeB; rewrite W, D; unfold rectangle; cbn [skipn nth app rev]; rn; sames].
    unfold rectangle. cbn [nth]. apply Permutation_app; (eapply perm_trans; [apply Permutation.perm_swap|]; do 2 apply perm_skip; apply Permutation.perm_swap).
Qed.
End Out.
