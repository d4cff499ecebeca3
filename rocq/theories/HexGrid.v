(** The grid of hexagons in the floor: shape, size and distance of the holes, over the reals. *)
From Coq Require Import Reals Lra Psatz ZArith List Bool Arith Lia.
From Verif Require Import Num GeoModel EdgeModel FloorModel GeoSpec GeoMat HullSpec FloorSpec.
Import ListNotations.
Open Scope R_scope.

Lemma foldM_inv {A B} (P : A -> Prop) (f : A -> B -> res A) l : (forall a x a', In x l -> P a -> f a x = Ok a' -> P a') -> forall a a', P a -> foldM f a l = Ok a' -> P a'.
Proof.
  induction l as [|x l IH]; intros H a a' Pa E; cbn [foldM] in E.
  - apply Ok_inj in E. subst a'. exact Pa.
  - apply bind_ok in E. destruct E as (b & E1 & E2). apply (IH (fun c y c' I => H c y c' (or_intror I)) b a'); [|exact E2]. apply (H a x b (or_introl eq_refl) Pa E1).
Qed.
Lemma pmin_le (a b : R) : @pmin Rnum a b <= b.
Proof. unfold pmin. destruct (@nltb Rnum b a) eqn:E; [apply Rle_refl|]. change (Rltb b a = false) in E. apply Rltb_false in E. exact E. Qed.

Section Hex.
Variable h : @hex_cfg Rnum.
Notation R0 := (@maxRadius Rnum h).
Notation r0 := (@minRadius Rnum h).
Lemma root3_eq : @root3 Rnum = sqrt 3. Proof. reflexivity. Qed.
Lemma minRadius_eq : r0 = R0 * (sqrt 3 / 2).
Proof. unfold minRadius. rewrite root3_eq. cbn [nmul ndiv Rnum nZ]. change (IZR 2) with 2. lra. Qed.
Lemma hexagonAt_eq x y : @hexagonAt Rnum h x y = hexagon (P x y 0) R0.
Proof.
  unfold hexagonAt, hexagon, P, X, Y. cbn [map fst snd vx vy]. rewrite minRadius_eq. cbn [nsub nadd ndiv Rnum nZ].
  do 6 (apply f_equal2; [apply pt_ext; unfold X, Y, Z; cbn [vx vy vz]; change (IZR 2) with 2; change (IZR 0) with 0; lra|]). reflexivity.
Qed.
Lemma hexPt_in x y i j : In (hexPt (@hexagonAt Rnum h x y) i j) (@hexagonAt Rnum h x y).
Proof. unfold hexPt. apply nth_In. change (length (@hexagonAt Rnum h x y)) with 6%nat. apply Nat.mod_upper_bound. discriminate. Qed.

Lemma pointFactor_le hx i f p f' : @pointFactor Rnum hx i f p = Ok f' -> f' <= f.
Proof.
  unfold pointFactor. cbv zeta. intros E. match type of E with (if ?b then _ else _) = _ => destruct b end; [apply Ok_inj in E; subst; apply Rle_refl|].
  revert E. apply (foldM_inv (fun g => g <= f)); [|apply Rle_refl]. intros a j a' _ L E. apply bind_ok in E. destruct E as (m & _ & E). destruct m as [hit|]; [|apply Ok_inj in E; subst; exact L].
  apply bind_ok in E. destruct E as (k & _ & E). apply Ok_inj in E. subst a'. apply (Rle_trans _ a); [apply pmin_le|exact L].
Qed.
Lemma segFactor_le hx i segs f j f' : @segFactor Rnum hx i segs f j = Ok f' -> f' <= f.
Proof.
  unfold segFactor. cbv zeta. apply (foldM_inv (fun g => g <= f)); [|apply Rle_refl]. intros a s a' _ L E. apply bind_ok in E. destruct E as (m & _ & E). destruct m as [hit|]; [|apply Ok_inj in E; subst; exact L].
  apply bind_ok in E. destruct E as (k & _ & E). apply Ok_inj in E. subst a'. apply (Rle_trans _ a); [apply pmin_le|exact L].
Qed.
Definition best_ok (hx : list pt) (b : R * option pt) : Prop := 0 <= fst b <= 1 /\ forall c, snd b = Some c -> In c hx /\ 0 < fst b.
Lemma scaleStep_ok edge segs x y pin b i b' : best_ok (@hexagonAt Rnum h x y) b -> scaleStep edge segs (@hexagonAt Rnum h x y) pin b i = Ok b' -> best_ok (@hexagonAt Rnum h x y) b'.
Proof.
  intros H E. unfold scaleStep in E. cbv zeta in E. apply bind_ok in E. destruct E as (inside & _ & E). destruct inside; [|apply Ok_inj in E; subst; exact H].
  apply bind_ok in E. destruct E as (f1 & E1 & E). apply bind_ok in E. destruct E as (f2 & E2 & E). apply Ok_inj in E.
  assert (L1 : f1 <= 1) by (revert E1; apply (foldM_inv (fun g => g <= 1)); [intros a p a' _ L Q; apply (Rle_trans _ a); [apply (pointFactor_le _ _ _ _ _ Q)|exact L]|apply Rle_refl]).
  assert (L2 : f2 <= 1) by (revert E2; apply (foldM_inv (fun g => g <= 1)); [intros a p a' _ L Q; apply (Rle_trans _ a); [apply (segFactor_le _ _ _ _ _ _ Q)|exact L]|exact L1]).
  match type of E with (if ?b then _ else _) = _ => destruct b eqn:C end; subst b'; [|exact H]. change (Rltb (fst b) f2 = true) in C. apply Rltb_true in C. destruct H as (H1 & H2).
  split; [cbn [fst]; lra|]. cbn [fst snd]. intros c Q. injection Q as <-. split; [apply hexPt_in|lra].
Qed.
(* the hexagon of one place: none, the full one, or one that is scaled down towards a corner *)
Lemma hexAt_cases edge segs x y hs : @hexAt Rnum h edge segs x y = Ok hs ->
  hs = [] \/ hs = [hexagonAt h x y] \/
  exists f c, hs = [escaled (hexagonAt h x y) f c] /\ 0 < f <= 1 /\ In c (hexagonAt h x y) /\ hx_minDiameter h <= hx_maxDiameter h * f.
Proof.
  unfold hexAt. cbv zeta. intros E. apply bind_ok in E. destruct E as (ds & _ & E). apply bind_ok in E. destruct E as (cd & _ & E).
  match type of E with (if ?b then _ else _) = _ => destruct b end.
  - apply bind_ok in E. destruct E as (b & _ & E). apply Ok_inj in E. subst hs. destruct b; auto.
  - apply bind_ok in E. destruct E as (pin & _ & E). apply bind_ok in E. destruct E as (best & E1 & E).
    assert (B : best_ok (hexagonAt h x y) best).
    { revert E1. apply foldM_inv; [intros a i a' _ H Q; apply (scaleStep_ok _ _ _ _ _ _ _ _ H Q)|]. split; [cbn [fst]; change (@nZ Rnum 0) with 0; lra|]. cbn [snd]. discriminate. }
    match type of E with (if ?b then _ else _) = _ => destruct b eqn:C end; [|apply Ok_inj in E; auto]. destruct best as (f & [c|]); [|discriminate]. cbn [fst snd] in *. apply Ok_inj in E. subst hs.
    destruct B as (B1 & B2). cbn [fst snd] in *. destruct (B2 c eq_refl) as (I & F). right. right. exists f, c. split; [reflexivity|]. split; [lra|]. split; [exact I|].
    change (Rleb (hx_minDiameter h) (hx_maxDiameter h * f) = true) in C. apply Rleb_true in C. exact C.
Qed.

(* scaling towards a corner gives a regular hexagon inside *)
Lemma hexagon_nth c r i : (i < 6)%nat -> exists d, nth i (hexagon c r) origin = P (X c + r * fst d) (Y c + r * snd d) 0.
Proof. intros I. do 6 (destruct i as [|i]; [eexists; reflexivity|]). lia. Qed.
Lemma scaled_hexagon c r f q : In q (hexagon c r) -> escaled (hexagon c r) f q = hexagon (P (X q + f * (X c - X q)) (Y q + f * (Y c - Y q)) 0) (f * r).
Proof.
  intros I. assert (ZQ : Z q = 0) by (unfold hexagon in I; apply in_map_iff in I; destruct I as (d & <- & _); reflexivity).
  unfold escaled, hexagon. rewrite !map_map. apply map_ext. intros (dx & dy). apply pt_ext; unfold vadd, vsub, vscale, P, X, Y, Z in *; cbn [vx vy vz fst snd]; rn; try lra; try (rewrite ZQ; ring).
Qed.

(** ** the grid *)
Definition cell (x0 y0 : R) (l : BinNums.Z * BinNums.Z) (hx : list pt) : Prop :=
  let x := x0 + @xPitch Rnum h / 2 * IZR (Z.modulo (fst l) 2) + IZR (snd l) * @xPitch Rnum h in
  let y := y0 + @yPitch Rnum h / 2 * IZR (fst l) in
  hx = hexagon (P x y 0) R0 \/
  exists f c, hx = escaled (hexagon (P x y 0) R0) f c /\ 0 < f <= 1 /\ In c (hexagon (P x y 0) R0) /\ hx_minDiameter h <= hx_maxDiameter h * f.
Definition cells x0 y0 := Forall2 (cell x0 y0).
Lemma row_cells edge segs limX x0 y0 fuel r k hs :
  @hexRow Rnum h fuel edge segs limX (x0 + xPitch h / 2 * IZR (Z.modulo r 2) + IZR k * xPitch h) (y0 + yPitch h / 2 * IZR r) = Ok hs ->
  exists ls, cells x0 y0 ls hs /\ NoDup ls /\ Forall (fun l => fst l = r /\ (k <= snd l)%Z) ls.
Proof.
  revert k hs. induction fuel as [|fuel IH]; intros k hs E; cbn [hexRow] in E; (match type of E with (if ?b then _ else _) = _ => destruct b eqn:C end; [|apply Ok_inj in E; subst hs; exists []; repeat constructor]); [discriminate|].
  apply bind_ok in E. destruct E as (h1 & E1 & E). apply bind_ok in E. destruct E as (h2 & E2 & E). apply Ok_inj in E. subst hs.
  assert (EX : forall a p, (a + IZR k * p + p)%R = a + IZR (k + 1) * p) by (intros; rewrite plus_IZR; ring).
  change (@nadd Rnum) with Rplus in E2. rewrite EX in E2. destruct (IH _ _ E2) as (ls & CL & ND & FL).
  apply hexAt_cases in E1. rewrite hexagonAt_eq in E1.
  assert (G : h1 = [] \/ exists hx, h1 = [hx] /\ cell x0 y0 (r, k) hx).
  { destruct E1 as [->|[->|(f & c & -> & F & I & M)]]; [left; reflexivity| |]; right; eexists; (split; [reflexivity|]); [left; reflexivity|right; exists f, c; auto]. }
  destruct G as [->|(hx & -> & CE)]; cbn [app].
  - exists ls. split; [exact CL|]. split; [exact ND|]. eapply Forall_impl; [|exact FL]. intros l (A & B). split; [exact A|lia].
  - exists ((r, k) :: ls). split; [constructor; assumption|]. split.
    + constructor; [|exact ND]. intros I. rewrite Forall_forall in FL. apply FL in I. cbn [snd] in I. lia.
    + constructor; [split; [reflexivity|cbn [snd]; lia]|]. eapply Forall_impl; [|exact FL]. intros l (A & B). split; [exact A|lia].
Qed.
Lemma NoDup_join {A} (a b : list A) : NoDup a -> NoDup b -> (forall x, In x a -> In x b -> False) -> NoDup (a ++ b).
Proof.
  intros HA HB D. induction HA as [|x a NI HA IH]; [exact HB|]. cbn [app]. constructor.
  - intros I. apply in_app_or in I. destruct I as [I|I]; [auto|]. apply (D x (or_introl eq_refl) I).
  - apply IH. intros y Y1 Y2. apply (D y (or_intror Y1) Y2).
Qed.
Lemma rows_cells edge segs limX limY x0 y0 rf fuel r hs :
  @hexRows Rnum h fuel rf edge segs limX limY x0 y0 r (x0 + xPitch h / 2 * IZR (Z.modulo r 2)) (y0 + yPitch h / 2 * IZR r) = Ok hs ->
  exists ls, cells x0 y0 ls hs /\ NoDup ls /\ Forall (fun l => (r <= fst l)%Z) ls.
Proof.
  revert r hs. induction fuel as [|fuel IH]; intros r hs E; cbn [hexRows] in E; (match type of E with (if ?b then _ else _) = _ => destruct b eqn:C end; [|apply Ok_inj in E; subst hs; exists []; repeat constructor]); [discriminate|].
  apply bind_ok in E. destruct E as (h1 & E1 & E). apply bind_ok in E. destruct E as (h2 & E2 & E). apply Ok_inj in E. subst hs.
  destruct (IH _ _ E2) as (ls & CL & ND & FL).
  replace (x0 + xPitch h / 2 * IZR (Z.modulo r 2))%R with (x0 + xPitch h / 2 * IZR (Z.modulo r 2) + IZR 0 * xPitch h) in E1 by ring.
  destruct (row_cells _ _ _ _ _ _ _ _ _ E1) as (l1 & C1 & N1 & F1). exists (l1 ++ ls). split; [apply Forall2_app; assumption|]. rewrite Forall_forall in FL, F1. split.
  - apply NoDup_join; [exact N1|exact ND|]. intros l I1 I2. destruct (F1 l I1) as (A & _). apply FL in I2. lia.
  - apply Forall_forall. intros l I. apply in_app_or in I. destruct I as [I|I]; [destruct (F1 l I) as (A & _); lia|]. apply FL in I. lia.
Qed.
Lemma raw_cells fuel edge hs : @hexRaw Rnum h fuel edge = Ok hs -> exists x0 y0 ls, cells x0 y0 ls hs /\ NoDup ls.
Proof.
  unfold hexRaw. intros E. apply bind_ok in E; destruct E as (m1 & _ & E). apply bind_ok in E; destruct E as (m2 & _ & E). apply bind_ok in E; destruct E as (m3 & _ & E). apply bind_ok in E; destruct E as (m4 & _ & E). cbv zeta in E.
  match type of E with hexRows _ _ _ _ _ _ _ ?a ?b _ _ _ = _ => set (x0 := a) in *; set (y0 := b) in * end.
  assert (E' : hexRows h fuel fuel edge (toSegments edge true) (m2 + R0)%R (m4 + r0)%R x0 y0 0 (x0 + xPitch h / 2 * IZR (Z.modulo 0 2))%R (y0 + yPitch h / 2 * IZR 0)%R = Ok hs).
  { rewrite <- E. f_equal; change (Z.modulo 0 2) with 0%Z; change (IZR 0) with 0; ring. }
  destruct (rows_cells _ _ _ _ _ _ _ _ _ _ E') as (ls & CL & ND & _). exists x0, y0, ls. auto.
Qed.
End Hex.

(** ** distance of the holes *)
Definition lin (a b c : R) (v : pt) : R := a * X v + b * Y v + c.
Lemma abs_le x m : Rabs x <= m <-> - m <= x <= m.
Proof. unfold Rabs. destruct (Rcase_abs x); split; lra. Qed.
Lemma lin_spanned a b c m vs : (forall v, In v vs -> Rabs (lin a b c v) <= m) -> forall w, spanned vs w -> Rabs (lin a b c w) <= m.
Proof.
  intros H w S. induction S as [v w I EX EY|p q w _ IH1 _ IH2 (t & T & EX & EY)].
  - unfold lin in *. rewrite EX, EY. apply H. exact I.
  - assert (E : lin a b c w = (1 - t) * lin a b c p + t * lin a b c q) by (unfold lin; rewrite EX, EY; unfold at2, X, Y, P; cbn [vx vy]; ring).
    rewrite E. rewrite abs_le in *. nra.
Qed.

Lemma sq3 : sqrt 3 * sqrt 3 = 3. Proof. apply sqrt_sqrt. lra. Qed.
Lemma sq3_pos : 0 < sqrt 3. Proof. apply sqrt_lt_R0. lra. Qed.
(* the three directions in which a hexagon has parallel sides *)
Definition across (a b : R) : Prop := (a = 0 /\ b = 1) \/ (a = sqrt 3 / 2 /\ b = 1/2) \/ (a = sqrt 3 / 2 /\ b = - 1/2).
Lemma hexagon_width a b c r v : across a b -> 0 <= r -> In v (hexagon c r) -> Rabs (lin a b (- (a * X c + b * Y c)) v) <= r * (sqrt 3 / 2).
Proof.
  intros A R0 I. pose proof sq3 as S2. pose proof sq3_pos as S0. unfold hexagon in I. cbn [map In fst snd] in I. assert (T0 : 0 <= r * sqrt 3) by nra. assert (T1 : forall k, (r * k * sqrt 3 = k * (r * sqrt 3))) by (intros; ring).
  rewrite abs_le. unfold lin.
  assert (E : exists t, -1 <= t <= 1 /\ a * X v + b * Y v + - (a * X c + b * Y c) = t * (r * (sqrt 3 / 2))).
  { destruct A as [(-> & ->)|[(-> & ->)|(-> & ->)]]; decompose [or] I; try contradiction; subst v; unfold X, Y, P; cbn [vx vy];
      first [exists 0; split; [lra|nra] | exists 1; split; [lra|nra] | exists (-1); split; [lra|nra]]. }
  destruct E as (t & T & ->). split; nra.
Qed.
Lemma scaled_width a b c m r f q v vs : (forall v, In v vs -> Rabs (lin a b c v) <= m) -> 0 < f <= 1 -> In q vs -> r = escaled vs f q -> In v r -> Rabs (lin a b c v) <= m.
Proof.
  intros H F I -> J. unfold escaled in J. apply in_map_iff in J. destruct J as (p & <- & J). specialize (H _ I) as HQ. specialize (H _ J) as HP. rewrite abs_le in *.
  assert (E : lin a b c (vadd (vscale (vsub p q) f) q) = (1 - f) * lin a b c q + f * lin a b c p) by (unfold lin, vadd, vscale, vsub, X, Y; cbn [vx vy]; rn; ring). rewrite E. nra.
Qed.
Lemma dir_dist a b (u v : pt) m : a * a + b * b = 1 -> m <= Rabs (a * (X u - X v) + b * (Y u - Y v)) -> m <= edist2 u v.
Proof.
  intros U H. apply (Rle_trans _ _ _ H). unfold edist2, sqdist2. rewrite <- (sqrt_Rsqr_abs (a * (X u - X v) + b * (Y u - Y v))). apply sqrt_le_1_alt. unfold Rsqr.
  set (dx := X u - X v). set (dy := Y u - Y v). assert (0 <= (a * dy - b * dx) * (a * dy - b * dx)) by apply Rle_0_sqr. nra.
Qed.
Lemma lattice_dir r1 k1 r2 k2 : (r1, k1) <> (r2, k2) ->
  let d := (r1 - r2)%Z in let e := (6 * (k1 - k2) + 3 * (r1 mod 2 - r2 mod 2))%Z in (4 <= Z.abs (2 * d) \/ 4 <= Z.abs (e + d) \/ 4 <= Z.abs (e - d))%Z.
Proof.
  intros N d e. assert (N' : r1 <> r2 \/ k1 <> k2) by (destruct (Z.eq_dec r1 r2); [right; congruence|left; assumption]). unfold d, e. clear N d e.
  pose proof (Z.div_mod r1 2 ltac:(lia)). pose proof (Z.div_mod r2 2 ltac:(lia)). pose proof (Z.mod_pos_bound r1 2 ltac:(lia)). pose proof (Z.mod_pos_bound r2 2 ltac:(lia)). lia.
Qed.
Section Sep.
Variable h : @hex_cfg Rnum.
Notation R0 := (@maxRadius Rnum h).
Lemma pitch_eq : @xPitch Rnum h = sqrt 3 * @yPitch Rnum h.
Proof.
  unfold xPitch, yPitch. rewrite (minRadius_eq h), root3_eq. cbn [nmul nadd Rnum nZ]. change (IZR 3) with 3. change (IZR 2) with 2. pose proof sq3 as S.
  replace (sqrt 3 * (2 * (R0 * (sqrt 3 / 2)) + hx_holeMargin h)) with (sqrt 3 * sqrt 3 * R0 + sqrt 3 * hx_holeMargin h) by field. rewrite S. apply (f_equal2 Rplus); [reflexivity|apply Rmult_comm].
Qed.
Lemma yPitch_eq : @yPitch Rnum h = 2 * (R0 * (sqrt 3 / 2)) + hx_holeMargin h.
Proof. unfold yPitch. rewrite (minRadius_eq h). reflexivity. Qed.
Definition cx (x0 : R) (l : BinNums.Z * BinNums.Z) : R := x0 + @xPitch Rnum h / 2 * IZR (Z.modulo (fst l) 2) + IZR (snd l) * @xPitch Rnum h.
Definition cy (y0 : R) (l : BinNums.Z * BinNums.Z) : R := y0 + @yPitch Rnum h / 2 * IZR (fst l).
Lemma cell_width x0 y0 l hx a b v : 0 <= R0 -> across a b -> cell h x0 y0 l hx -> In v hx -> Rabs (lin a b (- (a * cx x0 l + b * cy y0 l)) v) <= R0 * (sqrt 3 / 2).
Proof.
  intros HR A C I. unfold cell in C. cbv zeta in C. fold (cx x0 l) in C. fold (cy y0 l) in C.
  assert (W : forall v, In v (hexagon (P (cx x0 l) (cy y0 l) 0) R0) -> Rabs (lin a b (- (a * cx x0 l + b * cy y0 l)) v) <= R0 * (sqrt 3 / 2)).
  { intros p J. apply (hexagon_width a b (P (cx x0 l) (cy y0 l) 0) R0 p A HR J). }
  destruct C as [->|(f & q & E & F & Q & _)]; [apply W, I|]. apply (scaled_width a b _ _ _ f q v _ W F Q E I).
Qed.
Lemma cells_apart x0 y0 l1 l2 h1 h2 u v : 0 <= R0 -> 0 <= @yPitch Rnum h -> l1 <> l2 -> cell h x0 y0 l1 h1 -> cell h x0 y0 l2 h2 -> spanned h1 u -> spanned h2 v -> hx_holeMargin h <= edist2 u v.
Proof.
  intros HR HP N C1 C2 S1 S2. set (p := @yPitch Rnum h) in *. pose proof sq3 as Q3.
  assert (K : forall a b n, across a b -> a * (cx x0 l1 - cx x0 l2) + b * (cy y0 l1 - cy y0 l2) = IZR n * (p / 4) -> (4 <= Z.abs n)%Z -> hx_holeMargin h <= edist2 u v).
  { intros a b n A E L. apply (dir_dist a b).
    - destruct A as [(-> & ->)|[(-> & ->)|(-> & ->)]]; [lra| |]; (replace (sqrt 3 / 2 * (sqrt 3 / 2)) with (sqrt 3 * sqrt 3 / 4) by field; rewrite Q3; lra).
    - pose proof (lin_spanned a b _ _ h1 (fun w I => cell_width x0 y0 l1 h1 a b w HR A C1 I) u S1) as W1.
      pose proof (lin_spanned a b _ _ h2 (fun w I => cell_width x0 y0 l2 h2 a b w HR A C2 I) v S2) as W2. rewrite abs_le in W1, W2. unfold lin in W1, W2.
      pose proof yPitch_eq as PE. fold p in PE. assert (B : IZR n <= -4 \/ 4 <= IZR n) by (destruct (Z_le_dec 4 n) as [G|G]; [right; apply (IZR_le 4 n G)|left; apply (IZR_le n (-4)); lia]).
      assert (B' : IZR n * (p / 4) <= - p \/ p <= IZR n * (p / 4)) by (destruct B; [left|right]; nra).
      unfold Rabs. destruct (Rcase_abs _); destruct B'; lra. }
  destruct l1 as (r1 & k1), l2 as (r2 & k2). pose proof (lattice_dir r1 k1 r2 k2 N) as L. cbv zeta in L. pose proof pitch_eq as PX. fold p in PX. unfold cx, cy in K. cbn [fst snd] in K. fold p in K. rewrite PX in K.
  assert (EY : forall s, y0 + p / 2 * IZR r1 - (y0 + p / 2 * IZR r2) = IZR (r1 - r2) * (p / 2) + 0 * s) by (intros; rewrite minus_IZR; ring).
  destruct L as [L|[L|L]].
  - apply (K 0 1 (2 * (r1 - r2))%Z); [left; auto| |exact L]. rewrite mult_IZR, minus_IZR. change (IZR 2) with 2. field.
  - apply (K (sqrt 3 / 2) (1/2) (6 * (k1 - k2) + 3 * (r1 mod 2 - r2 mod 2) + (r1 - r2))%Z); [right; left; auto| |exact L]. rewrite !plus_IZR, !mult_IZR, !minus_IZR. change (IZR 6) with 6. change (IZR 3) with 3.
    transitivity (sqrt 3 * sqrt 3 * p * ((IZR (r1 mod 2) - IZR (r2 mod 2)) / 4 + (IZR k1 - IZR k2) / 2) + p / 4 * (IZR r1 - IZR r2)); [field|rewrite Q3; field].
  - apply (K (sqrt 3 / 2) (- 1/2) (6 * (k1 - k2) + 3 * (r1 mod 2 - r2 mod 2) - (r1 - r2))%Z); [right; right; auto| |exact L]. rewrite minus_IZR, plus_IZR, !mult_IZR, !minus_IZR. change (IZR 6) with 6. change (IZR 3) with 3.
    transitivity (sqrt 3 * sqrt 3 * p * ((IZR (r1 mod 2) - IZR (r2 mod 2)) / 4 + (IZR k1 - IZR k2) / 2) - p / 4 * (IZR r1 - IZR r2)); [field|rewrite Q3; field].
Qed.
Lemma Forall2_nth {A B} (Q : A -> B -> Prop) l m : Forall2 Q l m -> forall i b, nth_error m i = Some b -> exists a, nth_error l i = Some a /\ Q a b.
Proof. induction 1 as [|x y l m H HF IH]; intros i b E; destruct i as [|i]; try discriminate; [injection E as <-; exists x; auto|apply IH, E]. Qed.
Lemma raw_apart fuel edge hs i j h1 h2 u v : 0 <= R0 -> 0 <= @yPitch Rnum h -> hexRaw h fuel edge = Ok hs -> nth_error hs i = Some h1 -> nth_error hs j = Some h2 -> i <> j ->
  spanned h1 u -> spanned h2 v -> hx_holeMargin h <= edist2 u v.
Proof.
  intros HR HP E I J N. destruct (raw_cells h fuel edge hs E) as (x0 & y0 & ls & C & ND). destruct (Forall2_nth _ _ _ C i h1 I) as (l1 & I1 & C1). destruct (Forall2_nth _ _ _ C j h2 J) as (l2 & J1 & C2).
  apply (cells_apart x0 y0 l1 l2); try assumption. intros ->. apply N. apply (proj1 (NoDup_nth_error ls) ND); [apply nth_error_Some; congruence|congruence].
Qed.
(* shape and size *)
Lemma raw_shape fuel edge hs hx : 0 < R0 -> hexRaw h fuel edge = Ok hs -> In hx hs -> exists c r, hx = hexagon c r /\ 0 < r <= R0 /\ (r = R0 \/ hx_minDiameter h <= 2 * r).
Proof.
  intros HR E I. destruct (raw_cells h fuel edge hs E) as (x0 & y0 & ls & C & _). apply In_nth_error in I. destruct I as (i & I). destruct (Forall2_nth _ _ _ C i hx I) as (l & _ & CE).
  destruct CE as [->|(f & q & -> & F & Q & M)]; [eexists; exists R0; split; [reflexivity|]; split; [lra|left; reflexivity]|].
  rewrite (scaled_hexagon _ _ f q Q). eexists; eexists. split; [reflexivity|]. split; [split; nra|]. right. unfold maxRadius in *. cbn [ndiv nZ Rnum] in *. lra.
Qed.
End Sep.
