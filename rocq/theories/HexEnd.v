(** The loops of the hexagon grid end if the hexagons are at positive distances, and otherwise never. *)
From Coq Require Import Reals Lra Psatz ZArith List Bool Arith Lia.
From Verif Require Import Num GeoModel EdgeModel PlanModel FloorModel GeoSpec GeoMat HexGrid.
Import ListNotations.

(** ** nothing but the two loops runs out of fuel *)
Section Any.
Context {N : Num}.
Definition nf {A} (r : res A) : Prop := r <> Err OutOfFuel.
Lemma nf_ok {A} (a : A) : nf (Ok a). Proof. discriminate. Qed.
Lemma nf_bind {A B} (r : res A) (f : A -> res B) : nf r -> (forall a, r = Ok a -> nf (f a)) -> nf (bind r f).
Proof. unfold nf. destruct r as [a|e]; cbn [bind]; [auto|]. intros H _ E. apply H. congruence. Qed.
Lemma nf_if {A} (b : bool) (x y : res A) : nf x -> nf y -> nf (if b then x else y). Proof. destruct b; auto. Qed.
Lemma nf_mapM {A B} (f : A -> res B) l : (forall x, nf (f x)) -> nf (mapM f l).
Proof. intros H. induction l as [|x l IH]; [apply nf_ok|]. cbn [mapM]. apply nf_bind; [apply H|]. intros a _. apply nf_bind; [exact IH|]. intros; apply nf_ok. Qed.
Lemma nf_filterM {A} (f : A -> res bool) l : (forall x, nf (f x)) -> nf (filterM f l).
Proof. intros H. induction l as [|x l IH]; [apply nf_ok|]. cbn [filterM]. apply nf_bind; [apply H|]. intros a _. apply nf_bind; [exact IH|]. intros; apply nf_ok. Qed.
Lemma nf_foldM {A B} (f : A -> B -> res A) l : (forall a x, nf (f a x)) -> forall a, nf (foldM f a l).
Proof. intros H. induction l as [|x l IH]; intros a; [apply nf_ok|]. cbn [foldM]. apply nf_bind; [apply H|]. intros b _. apply IH. Qed.
Lemma nf_pdiv (a b : num) : nf (pdiv a b). Proof. unfold pdiv. apply nf_if; discriminate. Qed.
Lemma nf_sdist s (v : @vec N) : nf (sdistance2D s v).
Proof. unfold sdistance2D. cbv zeta. apply nf_bind; [apply nf_if; [apply nf_bind; [apply nf_pdiv|intros; apply nf_ok]|apply nf_ok]|intros; apply nf_ok]. Qed.
Lemma nf_sint (s o : @segment N) k : nf (sintersect2D s o k).
Proof.
  unfold sintersect2D. cbv zeta. apply nf_if; [|apply nf_ok]. apply nf_bind; [apply nf_pdiv|]. intros a _. apply nf_if; [|apply nf_ok].
  apply nf_bind; [apply nf_pdiv|]. intros b _. apply nf_if; apply nf_ok.
Qed.
Lemma nf_contains l (v : @vec N) : nf (contains2D l v).
Proof.
  assert (G : forall r p b, nf (containsLoop v p r b)).
  { induction r as [|x r IH]; intros p b; [apply nf_ok|]. cbn [containsLoop]. apply nf_bind; [|intros; apply IH]. unfold crosses. apply nf_if; [apply nf_bind; [apply nf_pdiv|intros; apply nf_ok]|apply nf_ok]. }
  destruct l; [apply nf_ok|apply G].
Qed.
Lemma nf_min (l : list num) : nf (minList l). Proof. destruct l; discriminate. Qed.
Lemma nf_max (l : list num) : nf (maxList l). Proof. destruct l; discriminate. Qed.
Lemma nf_hexAt h edge segs x y : nf (hexAt h edge segs x y).
Proof.
  unfold hexAt. cbv zeta. apply nf_bind; [apply nf_mapM; intros; apply nf_sdist|]. intros ds _. apply nf_bind; [apply nf_min|]. intros cd _. apply nf_if.
  - apply nf_bind; [apply nf_contains|]. intros; apply nf_ok.
  - apply nf_bind; [apply nf_filterM; intros; apply nf_contains|]. intros pin _. apply nf_bind.
    + apply nf_foldM. intros b i. unfold scaleStep. cbv zeta. apply nf_bind; [apply nf_contains|]. intros c _. apply nf_if; [|apply nf_ok].
      apply nf_bind; [apply nf_foldM; intros a p; unfold pointFactor; cbv zeta; apply nf_if; [apply nf_ok|apply nf_foldM; intros f j; apply nf_bind; [apply nf_sint|intros [m|] _; [apply nf_bind; [apply nf_pdiv|intros; apply nf_ok]|apply nf_ok]]]|].
      intros f _. apply nf_bind; [apply nf_foldM; intros a p; unfold segFactor; cbv zeta; apply nf_foldM; intros g s; apply nf_bind; [apply nf_sint|intros [m|] _; [apply nf_bind; [apply nf_pdiv|intros; apply nf_ok]|apply nf_ok]]|].
      intros; apply nf_ok.
    + intros best _. apply nf_if; [destruct (snd best); discriminate|apply nf_ok].
Qed.
End Any.

Open Scope R_scope.
Section Ends.
Variable h : @hex_cfg Rnum.
Lemma row_ends edge segs limX y fuel x : limX <= x + INR fuel * @xPitch Rnum h -> nf (@hexRow Rnum h fuel edge segs limX x y).
Proof.
  revert x. induction fuel as [|fuel IH]; intros x L; cbn [hexRow].
  - change (INR 0) with 0 in L. destruct (@nltb Rnum x limX) eqn:C; [|apply nf_ok]. change (Rltb x limX = true) in C. apply Rltb_true in C. lra.
  - apply nf_if; [|apply nf_ok]. apply nf_bind; [apply nf_hexAt|]. intros hs _. apply nf_bind; [|intros; apply nf_ok]. apply IH. rewrite S_INR in L. change (@nadd Rnum) with Rplus. lra.
Qed.
Lemma rows_end edge segs limX limY x0 y0 rf fuel r x : 0 < @xPitch Rnum h -> limX <= Rmin x x0 + INR rf * @xPitch Rnum h ->
  limY <= y0 + @yPitch Rnum h / 2 * (IZR r + INR fuel) -> nf (@hexRows Rnum h fuel rf edge segs limX limY x0 y0 r x (y0 + @yPitch Rnum h / 2 * IZR r)).
Proof.
  intros PX. revert r x. induction fuel as [|fuel IH]; intros r x L LY; cbn [hexRows].
  - change (INR 0) with 0 in LY. rewrite Rplus_0_r in LY. match goal with |- nf (if ?b then _ else _) => destruct b eqn:C end; [|apply nf_ok]. match type of C with @nltb Rnum ?a ?b = true => change (Rltb a b = true) in C end. apply Rltb_true in C. lra.
  - apply nf_if; [|apply nf_ok]. apply nf_bind; [apply row_ends; pose proof (Rmin_l x x0); lra|]. intros hs _. apply nf_bind; [|intros; apply nf_ok].
    apply IH.
    + apply (Rle_trans _ _ _ L). apply Rplus_le_compat_r. apply Rmin_glb; [|apply Rmin_r]. apply (Rle_trans _ x0); [apply Rmin_r|].
      cbn [nadd nmul ndiv Rnum nZ]. pose proof (Z.mod_pos_bound (r + 1) 2 ltac:(lia)) as (B & _). apply IZR_le in B. change (IZR 2) with 2. nra.
    + rewrite plus_IZR. rewrite S_INR in LY. replace (IZR r + 1 + INR fuel) with (IZR r + (INR fuel + 1)) by ring. exact LY.
Qed.
Lemma enough (a p l : R) : 0 < p -> exists n, forall k, (n <= k)%nat -> l <= a + p * INR k.
Proof.
  intros HP. destruct (archimed ((l - a) / p)) as (A & _). exists (Z.to_nat (up ((l - a) / p))). intros k L.
  assert (K : (l - a) / p <= INR k). { apply (Rle_trans _ (IZR (up ((l - a) / p)))); [lra|]. rewrite INR_IZR_INZ. apply IZR_le. lia. }
  apply (Rmult_le_compat_r p) in K; [|lra]. replace ((l - a) / p * p) with (l - a) in K by (field; lra). lra.
Qed.
Lemma raw_ends edge : 0 < @yPitch Rnum h -> exists n, forall fuel, (n <= fuel)%nat -> nf (hexRaw h fuel edge).
Proof.
  intros PY. assert (PX : 0 < @xPitch Rnum h) by (rewrite pitch_eq; apply Rmult_lt_0_compat; [apply sq3_pos|exact PY]).
  destruct (minList (map vx edge)) as [m1|e1] eqn:E1, (maxList (map vx edge)) as [m2|e2] eqn:E2, (minList (map vy edge)) as [m3|e3] eqn:E3, (maxList (map vy edge)) as [m4|e4] eqn:E4;
    try (exists 0%nat; intros fuel _; unfold hexRaw; rewrite E1, ?E2, ?E3, ?E4; cbn [bind]; pose proof (nf_min (map vx edge)); pose proof (nf_max (map vx edge)); pose proof (nf_min (map vy edge)); pose proof (nf_max (map vy edge)); unfold nf in *; congruence).
  set (x0 := m1 + maxRadius h + hx_xOffset h). set (y0 := m3 + minRadius h + hx_yOffset h - yPitch h).
  destruct (enough x0 (xPitch h) (m2 + maxRadius h) PX) as (n1 & H1). destruct (enough y0 (yPitch h / 2) (m4 + minRadius h) ltac:(change (0 < yPitch h / 2); lra)) as (n2 & H2).
  exists (max n1 n2). intros fuel L. unfold hexRaw. rewrite E1, E2, E3, E4. cbn [bind]. change (m1 + maxRadius h + hx_xOffset h)%num with x0. change (m3 + minRadius h + hx_yOffset h - yPitch h)%num with y0.
  pose proof (rows_end edge (toSegments edge true) (m2 + maxRadius h) (m4 + minRadius h) x0 y0 fuel fuel 0%Z x0 PX) as K. rewrite (Rmin_left x0 x0 (Rle_refl x0)) in K.
  assert (EY : y0 + yPitch h / 2 * IZR 0 = y0) by (change (IZR 0) with 0; ring). rewrite EY in K. apply K.
  - pose proof (H1 fuel ltac:(lia)). lra.
  - pose proof (H2 fuel ltac:(lia)). change (IZR 0) with 0. rewrite Rplus_0_l. assumption.
Qed.
(* without a positive pitch the first row never ends *)
Lemma row_never edge segs limX y fuel x hs : @xPitch Rnum h <= 0 -> x < limX -> @hexRow Rnum h fuel edge segs limX x y <> Ok hs.
Proof.
  intros PX. revert x hs. induction fuel as [|fuel IH]; intros x hs L; cbn [hexRow]; assert (C : @nltb Rnum x limX = true) by (apply Rltb_true; exact L); rewrite C; [discriminate|].
  intros E. apply bind_ok in E. destruct E as (h1 & _ & E). apply bind_ok in E. destruct E as (h2 & E2 & _). revert E2. apply IH. change (@nadd Rnum) with Rplus. lra.
Qed.
Lemma raw_never edge m1 m2 m3 m4 fuel hs : @yPitch Rnum h <= 0 -> minList (map vx edge) = Ok m1 -> maxList (map vx edge) = Ok m2 -> minList (map vy edge) = Ok m3 -> maxList (map vy edge) = Ok m4 ->
  m1 + hx_xOffset h < m2 -> m3 + hx_yOffset h - @yPitch Rnum h < m4 -> hexRaw h fuel edge <> Ok hs.
Proof.
  intros PY E1 E2 E3 E4 LX LY E. unfold hexRaw in E. rewrite E1, E2, E3, E4 in E. cbn [bind] in E.
  assert (PX : @xPitch Rnum h <= 0) by (rewrite pitch_eq; pose proof sq3_pos; nra).
  destruct fuel as [|fuel]; cbn [hexRows] in E; match type of E with (if ?b then _ else _) = _ => assert (C : b = true) by (apply Rltb_true; cbn [nadd nsub Rnum]; lra); rewrite C in E end; [discriminate|].
  apply bind_ok in E. destruct E as (h1 & E & _). revert E. apply row_never; [exact PX|]. cbn [nadd nsub Rnum]. lra.
Qed.
End Ends.
