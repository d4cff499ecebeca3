(** Further facts about Edge over the reals: totality of the meshers, collapse,
    distance to a polygon. *)
From Coq Require Import Reals Lra Psatz List Bool Arith Lia Sorting.Sorted.
From Verif Require Import Num GeoModel EdgeModel EdgeSpec EdgeMesh GeoSpec GeoMat GeoPlane GeoFig GeoTri EdgeSpecR EdgeContains.
Import ListNotations.
Open Scope R_scope.

(** ** totality of meshPairwise *)
Lemma tbool_total (t : @tri Rnum) : exists b, tbool t = Ok b.
Proof. destruct (tarea_spec t) as (a & E & _). unfold tbool. rewrite E. cbn. eauto. Qed.
Lemma tbool_distinct (t : @tri Rnum) : tbool t = Ok true -> tb t <> ta t /\ tc t <> tb t /\ tc t <> ta t.
Proof.
  intros H. destruct (tarea_spec t) as (a & E & A0 & S). unfold tbool in H. rewrite E in H. cbn [bind] in H. apply Ok_inj in H.
  assert (K : isZero a = false) by (destruct (isZero a); [discriminate|reflexivity]). 
  apply isZero_false in K. pose proof eps_pos as EP. rewrite Rabs_right in K by lra.
  assert (N : 0 < 16 * (a * a)) by nra. rewrite S in N. clear - N.
  assert (D : forall p, sqdist p p = 0) by (intros p; unfold sqdist; replace (X p - X p) with 0 by ring; replace (Y p - Y p) with 0 by ring; replace (Z p - Z p) with 0 by ring; unfold Rsqr; ring).
  assert (SY : forall p q, sqdist p q = sqdist q p) by (intros; unfold sqdist, Rsqr; ring).
  split; [|split]; intros Q; rewrite Q in N; rewrite ?D in N; unfold Rsqr in N; try nra.
  rewrite (SY (ta t) (tc t)) in N. nra.
Qed.
Lemma minus_nz (p q : pt) : p <> q -> vsub p q <> origin.
Proof.
  intros N E. apply N. pose proof (f_equal X E) as EX. pose proof (f_equal Y E) as EY. pose proof (f_equal Z E) as EZ.
  unfold vsub, origin, P in *. apply pt_ext; unfold X, Y, Z in *; rn; lra.
Qed.
Lemma meshQuad_total (a b c d : pt) : exists ts, meshQuad a b c d = Ok ts.
Proof.
  unfold meshQuad. destruct (tbool_total (mkTri d b c)) as (v8 & E8). destruct (tbool_total (mkTri a b d)) as (v4 & E4).
  destruct (tbool_total (mkTri c d a)) as (v2 & E2). destruct (tbool_total (mkTri a b c)) as (v1 & E1).
  rewrite E8, E4, E2, E1. cbn [bind].
  assert (K : exists bits, (if all_valid v8 v4 v2 v1 then
             abcAngle <- vangle (vsub a b) (vsub c b) ;; cdaAngle <- vangle (vsub c d) (vsub a d) ;;
             Ok (if nltb (nadd npi (nQ 1 1000000)) (nadd abcAngle cdaAngle) then (false, false, true, true) else quad_table v8 v4 v2 v1)
           else Ok (quad_table v8 v4 v2 v1)) = Ok bits).
  { destruct (all_valid v8 v4 v2 v1) eqn:AV; [|eauto]. unfold all_valid in AV. destruct v8, v4, v2, v1; try discriminate AV.
    apply tbool_distinct in E1. apply tbool_distinct in E2. cbn [ta tb tc] in *. destruct E1 as (P1 & P2 & _), E2 as (Q1 & Q2 & _).
    destruct (vangle_spec (vsub a b) (vsub c b)) as (x & Ex & _); [apply minus_nz; congruence|apply minus_nz; congruence|].
    destruct (vangle_spec (vsub c d) (vsub a d)) as (y & Ey & _); [apply minus_nz; congruence|apply minus_nz; congruence|].
    rewrite Ex, Ey. cbn [bind]. eauto. }
  destruct K as ([[[b1 b2] b3] b4] & K). rewrite K. cbn [bind]. eauto.
Qed.
Lemma mapM_total {A B} (f : A -> res B) l : (forall x, In x l -> exists y, f x = Ok y) -> exists ys, mapM f l = Ok ys.
Proof.
  induction l as [|x l IH]; intros H; [exists []; reflexivity|]. destruct (H x (or_introl eq_refl)) as (y & E).
  destruct IH as (ys & Es); [intros; apply H; right; assumption|]. cbn. rewrite E. cbn. rewrite Es. cbn. eauto.
Qed.
Lemma pairwise_total (s o : list pt) cl : s <> [] -> o <> [] -> exists ts, meshPairwise s o cl = Ok ts.
Proof.
  intros Hs Ho. unfold meshPairwise.
  destruct (mapM_total (quadAt s o cl) (seq 0 (Nat.max (endIdx o cl) (endIdx s cl)))) as (ls & E).
  - intros i _. unfold quadAt. rewrite !(ept_tip s cl origin), !(ept_tip o cl origin) by assumption. cbn [bind]. apply meshQuad_total.
  - rewrite E. cbn. eauto.
Qed.

(** ** totality of meshParallel *)
Definition has_normal (t : @tri Rnum) : Prop := exists n, tnormal t = Ok n.
Lemma tcircumradius_total (t : @tri Rnum) : exists r, tcircumradius t = Ok r.
Proof.
  destruct (tcircumradius_spec t) as [A B].
  destruct (Rlt_le_dec (2 * len (vcross (vsub (ta t) (tc t)) (vsub (tb t) (tc t)))) eps) as [H|H]; [eauto|].
  destruct (B H) as (r & _ & E & _). eauto.
Qed.
Lemma choice_total (prev : option (@tri Rnum)) abd acd : (forall t, prev = Some t -> has_normal t) -> has_normal abd -> has_normal acd ->
  exists b, parallelChoice prev abd acd = Ok b.
Proof.
  intros HP (n1 & N1) (n2 & N2). unfold parallelChoice.
  destruct (tcircumradius_total abd) as (r1 & R1). destruct (tcircumradius_total acd) as (r2 & R2).
  assert (U1 : n1 <> origin) by (apply unit_norig; eapply vnorm_unit; exact N1).
  assert (U2 : n2 <> origin) by (apply unit_norig; eapply vnorm_unit; exact N2).
  assert (K : exists dev, match prev with
          | None => Ok None
          | Some t => prevNorm <- tnormal t ;; n1 <- tnormal abd ;; abdDev <- vangle n1 prevNorm ;;
              n2 <- tnormal acd ;; acdDev <- vangle n2 prevNorm ;; tau16 <- pdiv (nmul (nZ 2) npi) (nZ 16) ;;
              Ok (if nltb abdDev (nsub acdDev tau16) then Some true else if nltb acdDev (nsub abdDev tau16) then Some false else None)
          end = Ok dev).
  { destruct prev as [t|]; [|eauto]. destruct (HP t eq_refl) as (n0 & N0).
    assert (U0 : n0 <> origin) by (apply unit_norig; eapply vnorm_unit; exact N0).
    rewrite N0, N1, N2. cbn [bind].
    destruct (vangle_spec n1 n0 U1 U0) as (x & Ex & _). destruct (vangle_spec n2 n0 U2 U0) as (y & Ey & _).
    rewrite Ex, Ey. cbn [bind]. rewrite pdiv_nz by (cbn; lra). cbn [bind]. eauto. }
  destruct K as (dev & K). rewrite K. cbn [bind]. destruct dev; [eauto|]. rewrite R1, R2. cbn [bind]. eauto.
Qed.
(* every candidate triangle between the two edges is proper *)
Definition proper_strip (s o : list pt) (cl : bool) : Prop :=
  forall i j, (i < length (outline s cl) - 1)%nat -> (j < length (outline o cl) - 1)%nat ->
    has_normal (mkTri (stop s cl origin i) (stop s cl origin (S i)) (stop o cl origin j)) /\
    has_normal (mkTri (stop s cl origin i) (stop o cl origin (S j)) (stop o cl origin j)).
Lemma parallel_total (s o : list pt) cl : s <> [] -> o <> [] -> proper_strip s o cl -> exists ts, meshParallel s o cl = Ok ts.
Proof.
  intros Hs Ho PR. unfold meshParallel.
  assert (G : forall fuel i j out, (i <= endIdx s cl)%nat -> (j <= endIdx o cl)%nat -> (endIdx s cl - i + (endIdx o cl - j) <= fuel)%nat ->
     ((i < endIdx s cl)%nat -> (j < endIdx o cl)%nat -> forall t, hd_error out = Some t -> has_normal t) ->
     exists ts, parallelLoop fuel s o cl i j out = Ok ts).
  { induction fuel as [|fuel IH]; intros i j out Hi Hj Hf HO; cbn [parallelLoop];
      (destruct ((i <? endIdx s cl)%nat || (j <? endIdx o cl)%nat) eqn:E; [|eauto]).
    - exfalso. apply orb_true_iff in E. destruct E as [E|E]; apply Nat.ltb_lt in E; lia.
    - rewrite !(ept_tip s cl origin), !(ept_tip o cl origin) by assumption. cbn [bind].
      assert (PR' : (i < endIdx s cl)%nat -> (j < endIdx o cl)%nat ->
         has_normal (mkTri (stop s cl origin i) (stop s cl origin (S i)) (stop o cl origin j)) /\
         has_normal (mkTri (stop s cl origin i) (stop o cl origin (S j)) (stop o cl origin j))).
      { intros A B. apply PR; rewrite outline_len by assumption; assumption. }
      destruct (endIdx s cl <=? i)%nat eqn:E1.
      { apply Nat.leb_le in E1. apply orb_true_iff in E. destruct E as [E|E]; apply Nat.ltb_lt in E; [lia|].
        apply IH; try lia. }
      apply Nat.leb_gt in E1. destruct (endIdx o cl <=? j)%nat eqn:E2.
      { apply Nat.leb_le in E2. apply IH; try lia. }
      apply Nat.leb_gt in E2. destruct (PR' E1 E2) as [P1 P2].
      destruct (choice_total (hd_error out) _ _ (HO E1 E2) P1 P2) as (ch & Ech).
      unfold bind at 1. rewrite Ech. destruct ch; apply IH; try lia; intros _ _ t Q; cbn in Q; injection Q as <-; assumption. }
  apply (G (endIdx s cl + endIdx o cl)%nat 0%nat 0%nat []); try lia. intros _ _ t Q. discriminate.
Qed.

(** ** collapsed *)
Lemma segs_index (l : list pt) : toSegments l true = map (fun i => mkSeg (cyc l i) (cyc l (S i))) (seq 0 (length l)).
Proof.
  destruct l as [|a l0]; [reflexivity|]. set (l := a :: l0). assert (NE : l <> []) by discriminate.
  change (toSegments l true) with (segs_open l ++ [mkSeg (last l a) a]).
  assert (O : forall m, segs_open m = map (fun i => mkSeg (nth i m origin) (nth (S i) m origin)) (seq 0 (length m - 1))).
  { clear. induction m as [|x [|y m] IH]; [reflexivity|reflexivity|].
    change (segs_open (x :: y :: m)) with (mkSeg x y :: segs_open (y :: m)). rewrite IH. cbn [length].
    replace (S (S (length m)) - 1)%nat with (S (S (length m) - 1)) by lia. cbn [seq map]. f_equal. rewrite <- seq_shift, map_map. reflexivity. }
  rewrite O. assert (LN : length l = S (length l - 1)) by (cbn; lia). rewrite (f_equal (seq 0) LN : seq 0 (length l) = seq 0 (S (length l - 1))).
  rewrite seq_S, map_app. cbn [Nat.add map]. apply f_equal2.
  - apply map_ext_in. intros i Hi. apply in_seq in Hi. rewrite !cyc_small by lia. reflexivity.
  - rewrite <- LN, cyc_len, cyc_small by (auto; lia). rewrite (last_indep l a origin) by exact NE. rewrite last_nth. reflexivity.
Qed.
Lemma smag_edist (a b : pt) : smag (mkSeg a b) = edist b a.
Proof. unfold smag. change (@vmag Rnum) with len. reflexivity. Qed.
Lemma edist_sym a b : edist a b = edist b a.
Proof. unfold edist. f_equal. unfold sqdist, Rsqr. ring. Qed.

Lemma collapsed_index (l : list pt) (thr : R) : exists idx, StronglySorted lt idx /\
  (forall i, In i idx <-> (i < length l)%nat /\ thr <= edist (cyc l i) (cyc l (S i))) /\
  @collapsed Rnum l thr = map (cyc l) idx.
Proof.
  exists (filter (fun i => Rleb thr (edist (cyc l i) (cyc l (S i)))) (seq 0 (length l))). split; [|split].
  - assert (G : forall n k, StronglySorted lt (filter (fun i => Rleb thr (edist (cyc l i) (cyc l (S i)))) (seq k n))).
    { induction n as [|n IH]; intros k; [constructor|]. cbn [seq filter]. destruct (Rleb _ _); [|apply IH].
      constructor; [apply IH|]. rewrite Forall_forall. intros x Hx. apply filter_In in Hx. destruct Hx as [Hx _]. apply in_seq in Hx. lia. }
    apply G.
  - intros i. rewrite filter_In, in_seq, Rleb_true. intuition lia.
  - unfold collapsed. rewrite segs_index. generalize (seq 0 (length l)). intros q. induction q as [|i q IH]; [reflexivity|].
    cbn [map filter]. rewrite smag_edist, edist_sym. change (@nleb Rnum) with Rleb in *.
    destruct (Rleb thr _); cbn [map]; rewrite IH; reflexivity.
Qed.

(** triangle inequality *)
Lemma edist_tri (a b c : pt) : edist a c <= edist a b + edist b c.
Proof.
  unfold edist. set (u := sqdist a b). set (w := sqdist b c).
  assert (NN : forall p q, 0 <= sqdist p q) by (intros p q; unfold sqdist; pose proof (Rle_0_sqr (X p - X q)); pose proof (Rle_0_sqr (Y p - Y q)); pose proof (Rle_0_sqr (Z p - Z q)); lra).
  assert (U : 0 <= u) by apply NN. assert (W : 0 <= w) by apply NN.
  assert (CS : (sqdist a c - u - w) / 2 <= sqrt u * sqrt w).
  { rewrite <- sqrt_mult by assumption. apply Rsqr_incr_0_var; [|apply sqrt_pos]. rewrite Rsqr_sqrt by (apply Rmult_le_pos; assumption).
    unfold u, w, sqdist, Rsqr.
    set (x := X a - X b). set (y := Y a - Y b). set (z := Z a - Z b). set (x' := X b - X c). set (y' := Y b - Y c). set (z' := Z b - Z c).
    replace (X a - X c) with (x + x') by (unfold x, x'; ring). replace (Y a - Y c) with (y + y') by (unfold y, y'; ring).
    replace (Z a - Z c) with (z + z') by (unfold z, z'; ring).
    pose proof (Rle_0_sqr (x * y' - y * x')). pose proof (Rle_0_sqr (x * z' - z * x')). pose proof (Rle_0_sqr (y * z' - z * y')). unfold Rsqr in *. nra. }
  apply Rsqr_incr_0_var; [|pose proof (sqrt_pos u); pose proof (sqrt_pos w); lra].
  rewrite Rsqr_sqrt by apply NN. unfold Rsqr. pose proof (sqrt_sqrt u U). pose proof (sqrt_sqrt w W). nra.
Qed.
Lemma collapse_gap (l : list pt) thr i m :
  (forall k, (1 <= k <= m)%nat -> edist (cyc l (i + k)) (cyc l (S (i + k))) < thr) ->
  edist (cyc l i) (cyc l (i + m + 1)) >= edist (cyc l i) (cyc l (i + 1)) - INR m * thr.
Proof.
  induction m as [|m IH]; intros H.
  - rewrite Nat.add_0_r. cbn [INR]. lra.
  - specialize (IH (fun k Hk => H k ltac:(lia))). specialize (H (S m) ltac:(lia)).
    replace (i + S m + 1)%nat with (S (i + S m)) by lia. replace (i + m + 1)%nat with (i + S m)%nat in IH by lia.
    pose proof (edist_tri (cyc l i) (cyc l (S (i + S m))) (cyc l (i + S m))) as T.
    rewrite (edist_sym (cyc l (S (i + S m))) (cyc l (i + S m))) in T. rewrite S_INR. lra.
Qed.

(** ** distance to a polygon *)
Lemma edistance_spec (l : list pt) v : l <> [] -> exists d, edistance2D l v = Ok d /\
  (contains2D l v = Ok true -> d = 0) /\
  (contains2D l v = Ok false ->
     (exists i w, (i < length l)%nat /\ on_seg2 (cyc l i) (cyc l (S i)) w /\ d = edist2 w v) /\
     (forall i w, (i < length l)%nat -> on_seg2 (cyc l i) (cyc l (S i)) w -> d <= edist2 w v)).
Proof.
  intros NE. unfold edistance2D. rewrite contains_x. cbn [bind]. destruct (xloop (cb v) l) eqn:E.
  - exists 0. split; [reflexivity|]. split; [reflexivity|]. intros Q. discriminate.
  - destruct (mapM_total (fun s => sdistance2D s v) (toSegments l true)) as (ds & Eds).
    { intros s _. destruct (sdistance2D_spec s v) as (d & Ed & _). eauto. }
    rewrite Eds. cbn [bind]. apply mapM_ok in Eds. rewrite segs_index in Eds.
    assert (LN : (0 < length l)%nat) by (destruct l; [contradiction|cbn; lia]).
    assert (M : forall (l0 : list R) x, exists d, minList (N := Rnum) (x :: l0) = Ok d /\ In d (x :: l0) /\ forall y, In y (x :: l0) -> d <= y).
    { clear. intros l0 x. cbn [minList]. eexists. split; [reflexivity|]. revert x. induction l0 as [|y l0 IH]; intros x; cbn [fold_left].
      - split; [left; reflexivity|]. intros y [<-|[]]. lra.
      - destruct (IH (@pmin Rnum x y)) as [I1 I2]. 
        assert (PM : (@pmin Rnum x y : R) <= x /\ (@pmin Rnum x y : R) <= y /\ (@pmin Rnum x y = x \/ @pmin Rnum x y = y)).
        { unfold pmin. rn. destruct (Rltb y x) eqn:Q; [apply Rltb_true in Q|apply Rltb_false in Q]; split; try lra; split; try lra; auto. }
        destruct PM as (P1 & P2 & P3). set (m := @pmin Rnum x y) in *. split.
        + destruct I1 as [I1|I1]; [|right; right; exact I1]. destruct P3 as [P3|P3]; [left; congruence|right; left; congruence].
        + intros z [<-|[<-|Hz]].
          * pose proof (I2 m (or_introl eq_refl)). lra.
          * pose proof (I2 m (or_introl eq_refl)). lra.
          * apply I2. right. exact Hz. }
    destruct ds as [|d0 ds].
    { exfalso. inversion Eds as [Q|]. destruct (length l); [lia|discriminate Q]. }
    destruct (M ds d0) as (d & Ed & Id & Ld). exists d. split; [exact Ed|]. split; [discriminate|]. intros _.
    assert (F1 : forall y, In y (d0 :: ds) -> exists i, (i < length l)%nat /\ sdistance2D (mkSeg (cyc l i) (cyc l (S i))) v = Ok y).
    { intros y Hy. assert (HS : forall x, In x (seq 0 (length l)) -> (x < length l)%nat) by (intros x Hx; apply in_seq in Hx; lia).
      revert HS Eds Hy. generalize (seq 0 (length l)) (d0 :: ds). clear. induction l0 as [|i q IH]; intros ys HS F Hy; cbn [map] in F; inversion F; subst; [destruct Hy|].
      destruct Hy as [<-|Hy]; [exists i; split; [apply HS; left; reflexivity|assumption]|]. eapply IH; eauto. intros; apply HS; right; assumption. }
    assert (F2 : forall i, (i < length l)%nat -> exists y, In y (d0 :: ds) /\ sdistance2D (mkSeg (cyc l i) (cyc l (S i))) v = Ok y).
    { intros i Hi. assert (HS : In i (seq 0 (length l))) by (apply in_seq; lia).
      revert HS Eds. generalize (seq 0 (length l)) (d0 :: ds). clear. induction l0 as [|k q IH]; intros ys HS F; cbn [map] in F; inversion F; subst; [destruct HS|].
      destruct HS as [<-|HS]; [eexists; split; [left; reflexivity|assumption]|]. destruct (IH _ HS H3) as (y0 & A & B). exists y0. split; [right; exact A|exact B]. }
    split.
    + destruct (F1 d Id) as (i & Hi & Es). destruct (sdistance2D_spec (mkSeg (cyc l i) (cyc l (S i))) v) as (d' & Ed' & (w & Hw & Dw) & _).
      rewrite Es in Ed'. okinv Ed'. exists i, w. auto.
    + intros i w Hi Hw. destruct (F2 i Hi) as (y & Hy & Es). destruct (sdistance2D_spec (mkSeg (cyc l i) (cyc l (S i))) v) as (d' & Ed' & _ & Mn).
      rewrite Es in Ed'. okinv Ed'. pose proof (Ld y Hy). pose proof (Mn w Hw). lra.
Qed.
