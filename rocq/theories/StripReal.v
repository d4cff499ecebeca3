(** Strips between edges over the reals: when are they clean? *)
From Coq Require Import Reals Lra List Bool Arith Lia.
From Verif Require Import Num GeoModel EdgeModel EdgeSpec GeoSpec GeoMat GeoTri EdgeReal.
Import ListNotations.
Open Scope R_scope.

Lemma gram (u w n : pt) : inner (vcross u w) n * inner (vcross u w) n =
  inner u u * inner w w * inner n n + 2 * inner u w * inner w n * inner u n
  - inner u u * (inner w n * inner w n) - inner w w * (inner u n * inner u n) - inner n n * (inner u w * inner u w).
Proof. destruct u, w, n. unfold inner, X, Y, Z. cbn. ring. Qed.
Lemma lagrange (u w : pt) : inner (vcross u w) (vcross u w) = inner u u * inner w w - inner u w * inner u w.
Proof. destruct u, w. unfold inner, X, Y, Z. cbn. ring. Qed.
Lemma sqdist_inner (p q : pt) : sqdist p q = inner (minus q p) (minus q p).
Proof. destruct p, q. unfold sqdist, inner, minus, Rsqr, X, Y, Z. cbn. ring. Qed.
Lemma edist_len (p q : pt) : edist p q = len (minus q p).
Proof. unfold edist, len. rewrite sqdist_inner. reflexivity. Qed.
Lemma tbool_len (t : @tri Rnum) : tbool t = Ok (negb (isZero (len (vcross (minus (tb t) (ta t)) (minus (tc t) (ta t))) / 2 : R))).
Proof. unfold tbool, tarea. change (@vmag Rnum) with len. rewrite pdiv_nz by (cbn; lra). reflexivity. Qed.
Lemma tbool_of_sq (t : @tri Rnum) : 4 * (eps * eps) <= inner (vcross (minus (tb t) (ta t)) (minus (tc t) (ta t))) (vcross (minus (tb t) (ta t)) (minus (tc t) (ta t))) ->
  tbool t = Ok true.
Proof.
  rewrite tbool_len. set (v := vcross _ _). intros H. do 2 f_equal. apply Bool.negb_true_iff, isZero_false.
  pose proof (len_nonneg v). pose proof eps_pos. rewrite Rabs_right by lra. unfold len.
  assert (E : sqrt (4 * (eps * eps)) = 2 * eps) by (replace (4 * (eps * eps)) with ((2 * eps) * (2 * eps)) by ring; apply sqrt_square; lra).
  pose proof (sqrt_le_1_alt _ _ H) as K. rewrite E in K. lra.
Qed.
(* the triangle with base u in a plane with unit normal n and apex at height g *)
Lemma tbool_fat (t : @tri Rnum) (n : pt) g : inner n n = 1 ->
  inner (minus (tb t) (ta t)) n = 0 -> inner (minus (tc t) (ta t)) n = g -> 2 * eps <= edist (ta t) (tb t) * Rabs g ->
  tbool t = Ok true.
Proof.
  intros U B G H. apply tbool_of_sq. set (u := minus (tb t) (ta t)) in *. set (w := minus (tc t) (ta t)) in *.
  rewrite lagrange. pose proof (gram u w n) as K. rewrite U, B, G in K.
  assert (Q : inner u u * (g * g) <= inner u u * inner w w - inner u w * inner u w).
  { pose proof (Rle_0_sqr (inner (vcross u w) n)) as S. unfold Rsqr in S. lra. }
  apply Rle_trans with (2 := Q). rewrite <- len_sq. rewrite edist_len in H. fold u in H.
  pose proof eps_pos. pose proof (len_nonneg u). pose proof (Rabs_pos g).
  assert (E : g * g = Rabs g * Rabs g) by (rewrite <- Rabs_mult, Rabs_right; [reflexivity|apply Rle_ge, Rle_0_sqr]). rewrite E.
  replace (len u * len u * (Rabs g * Rabs g)) with ((len u * Rabs g) * (len u * Rabs g)) by ring.
  replace (4 * (eps * eps)) with ((2 * eps) * (2 * eps)) by ring. apply Rmult_le_compat; lra.
Qed.
Lemma tbool_rot (a b c : pt) : tbool (mkTri a b c) = tbool (mkTri b c a).
Proof.
  rewrite !tbool_len. cbn [ta tb tc].
  assert (E : @vcross Rnum (minus b a) (minus c a) = vcross (minus c b) (minus a b))
    by (destruct a, b, c; unfold minus, P, X, Y, Z, vcross; cbn; f_equal; ring).
  rewrite E. reflexivity.
Qed.

(* neighbouring points are equal, or far enough apart for the gap *)
Definition long_or_point (g : R) (p q : pt) : Prop := p = q \/ 2 * eps <= edist p q * g.
Lemma clean_planes (a b c d n : pt) g : inner n n = 1 ->
  inner (minus b a) n = 0 -> inner (minus c d) n = 0 -> inner (minus d a) n = g ->
  long_or_point (Rabs g) a b -> long_or_point (Rabs g) d c -> @clean_quad Rnum a b c d.
Proof.
  intros U A B G La Lb. right. right.
  assert (Ic : inner (minus c a) n = g) by (rewrite <- G; revert B; destruct a, c, d, n; unfold inner, minus, P, X, Y, Z; cbn; intros; lra).
  assert (Iac : inner (minus a c) n = - g) by (rewrite <- Ic; destruct a, c, n; unfold inner, minus, P, X, Y, Z; cbn; ring).
  assert (Ibc : inner (minus b c) n = - g) by (rewrite <- Ic; revert A; destruct a, b, c, n; unfold inner, minus, P, X, Y, Z; cbn; intros; lra).
  assert (Bd : inner (minus d c) n = 0) by (revert B; destruct c, d, n; unfold inner, minus, P, X, Y, Z; cbn; intros; lra).
  assert (SY : forall p q : pt, edist p q = edist q p) by (intros p q; unfold edist; f_equal; destruct p, q; unfold sqdist, Rsqr, X, Y, Z; cbn; ring).
  unfold same. split; [|split; [|split]].
  - destruct La as [->|La]; [right; left; left; reflexivity|left]. apply (tbool_fat _ n g); cbn [ta tb tc]; assumption.
  - destruct Lb as [->|Lb]; [right; left; left; reflexivity|left]. apply (tbool_fat _ n (- g)); cbn [ta tb tc]; try assumption.
    rewrite Rabs_Ropp, SY. exact Lb.
  - destruct La as [->|La]; [right; right; left; reflexivity|left]. apply (tbool_fat _ n g); cbn [ta tb tc]; assumption.
  - destruct Lb as [->|Lb]; [right; right; left; reflexivity|left]. rewrite tbool_rot, tbool_rot. apply (tbool_fat _ n (- g)); cbn [ta tb tc]; try assumption.
    rewrite Rabs_Ropp, SY. exact Lb.
Qed.

(* consecutive points of a list *)
Definition neighbours (R : pt -> pt -> Prop) (l : list pt) : Prop := forall i, (S i < length l)%nat -> R (nth i l origin) (nth (S i) l origin).
Lemma stop_step (Rel : pt -> pt -> Prop) (l : list pt) cl i : l <> [] -> (forall p, Rel p p) -> neighbours Rel (@outline Rnum l cl) ->
  Rel (stop l cl vzero i) (stop l cl vzero (S i)).
Proof.
  intros NE Rf H. unfold stop. set (o := outline l cl) in *.
  destruct (le_lt_dec (length o - 1) i) as [L|L].
  - rewrite !Nat.min_l by lia. apply Rf.
  - rewrite !Nat.min_r by lia. assert (L2 : (S i < length o)%nat) by lia. exact (H i L2).
Qed.
Lemma stop_in (l : list pt) cl i : l <> [] -> In (stop l cl vzero i) l.
Proof.
  intros NE. unfold stop. destruct l as [|a l]; [contradiction|]. set (o := outline (a :: l) cl).
  assert (I : incl o (a :: l)).
  { unfold o, outline. destruct cl; [|apply incl_refl]. apply incl_app; [apply incl_refl|]. intros x [<-|[]]. left. reflexivity. }
  apply I. apply nth_In. assert (1 <= length o)%nat by (unfold o, outline; destruct cl; cbn; lia). lia.
Qed.
(* a strip between two parallel planes *)
Theorem strip_between_planes (s o : list pt) cl (n : pt) (h1 h2 : R) : s <> [] -> o <> [] -> inner n n = 1 ->
  (forall p, In p s -> inner p n = h1) -> (forall p, In p o -> inner p n = h2) ->
  neighbours (long_or_point (Rabs (h2 - h1))) (@outline Rnum s cl) -> neighbours (long_or_point (Rabs (h2 - h1))) (@outline Rnum o cl) ->
  @clean_strip Rnum s o cl vzero.
Proof.
  intros Ns No U Hs Ho Ls Lo i.
  pose proof (Hs _ (stop_in s cl i Ns)) as A1. pose proof (Hs _ (stop_in s cl (S i) Ns)) as A2.
  pose proof (Ho _ (stop_in o cl i No)) as A3. pose proof (Ho _ (stop_in o cl (S i) No)) as A4.
  assert (MI : forall p q : pt, inner (minus p q) n = inner p n - inner q n) by (intros p q; destruct p, q, n; unfold inner, minus, P, X, Y, Z; cbn; ring).
  apply (clean_planes _ _ _ _ n (h2 - h1) U); rewrite ?MI.
  - lra.
  - lra.
  - lra.
  - apply (stop_step (long_or_point (Rabs (h2 - h1)))); [exact Ns|left; reflexivity|exact Ls].
  - apply (stop_step (long_or_point (Rabs (h2 - h1)))); [exact No|left; reflexivity|exact Lo].
Qed.

(** ** upright walls: corresponding points lie above each other *)
Lemma tbool_wall (p q r : pt) : X p = X q -> Y p = Y q -> 2 * eps <= Rabs (Z q - Z p) * edist2 p r -> tbool (mkTri p q r) = Ok true.
Proof.
  intros HX HY H. apply tbool_of_sq. cbn [ta tb tc]. rewrite lagrange.
  set (L := edist2 p r) in *. set (h := Z q - Z p) in *.
  assert (LL : L * L = (X r - X p) * (X r - X p) + (Y r - Y p) * (Y r - Y p)).
  { unfold L, edist2. rewrite sqrt_sqrt; [|apply Rplus_le_le_0_compat; apply Rle_0_sqr]. unfold sqdist2, Rsqr. ring. }
  assert (E : inner (minus q p) (minus q p) * inner (minus r p) (minus r p) - inner (minus q p) (minus r p) * inner (minus q p) (minus r p) = h * h * (L * L)).
  { rewrite LL. unfold h, inner, minus. destruct p as [px py pz], q as [qx qy qz], r as [rx ry rz]. unfold X, Y, Z, P in *. cbn in *. subst px py. ring. }
  rewrite E. assert (E2 : h * h = Rabs h * Rabs h) by (rewrite <- Rabs_mult, Rabs_right; [reflexivity|apply Rle_ge, Rle_0_sqr]). rewrite E2.
  replace (Rabs h * Rabs h * (L * L)) with ((Rabs h * L) * (Rabs h * L)) by ring.
  replace (4 * (eps * eps)) with ((2 * eps) * (2 * eps)) by ring. pose proof eps_pos. apply Rmult_le_compat; lra.
Qed.
Lemma edist2_ext (p q p' q' : pt) : X p = X p' -> Y p = Y p' -> X q = X q' -> Y q = Y q' -> edist2 p q = edist2 p' q'.
Proof. intros A B C D. unfold edist2, sqdist2. rewrite A, B, C, D. reflexivity. Qed.
Lemma edist2_sym (p q : pt) : edist2 p q = edist2 q p.
Proof. unfold edist2. f_equal. unfold sqdist2, Rsqr. ring. Qed.
Lemma clean_walls (a b c d : pt) : X c = X b -> Y c = Y b -> X d = X a -> Y d = Y a ->
  (a = b /\ c = d) \/ (2 * eps <= Rabs (Z c - Z b) * edist2 a b /\ 2 * eps <= Rabs (Z d - Z a) * edist2 a b) ->
  @clean_quad Rnum a b c d.
Proof.
  intros XC YC XD YD [(-> & ->)|(H1 & H2)].
  - right. right. unfold same. intuition.
  - left. left.
    split; [|split].
    + rewrite tbool_rot. apply tbool_wall; [congruence|congruence|]. rewrite edist2_sym. exact H1.
    + rewrite tbool_rot. apply tbool_wall; [congruence|congruence|]. rewrite (edist2_ext d c a b) by congruence.
      rewrite Rabs_minus_sym. exact H2.
    + rewrite tbool_rot, tbool_rot. apply tbool_wall; [congruence|congruence|]. rewrite (edist2_ext d b a b) by congruence.
      rewrite Rabs_minus_sym. exact H2.
Qed.
