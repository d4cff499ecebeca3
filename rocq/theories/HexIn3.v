(** Every hexagon of the grid lies inside the border. *)
From Coq Require Import Reals Lra Psatz ZArith List Bool Arith Lia.
From Verif Require Import Num GeoModel EdgeModel PlanModel FloorModel GeoSpec GeoMat GeoFig EdgeSpecR EdgeContains EdgeReal EdgePath HullSpec FloorSpec HexGrid HexIn HexIn2.
Import ListNotations.
Open Scope R_scope.

Lemma three_strips a b m : - m < a < m -> - m < b < m -> - m < a - b < m -> a * a - a * b + b * b < m * m.
Proof.
  intros A B C. destruct (Rle_dec 0 (a * b)) as [H|H].
  - destruct (Rle_dec (Rabs b) (Rabs a)) as [L|L]; revert L; unfold Rabs; destruct (Rcase_abs a), (Rcase_abs b); intros L; nra.
  - nra.
Qed.
Lemma hexagon_disc o r w : 0 < r -> strictly_inside (hexagon o r) w -> edist2 w o < r.
Proof.
  intros Hr (_ & H). pose proof sq3 as Q3. pose proof sq3_pos as Q0.
  assert (K0 := H 0%nat ltac:(cbn; lia)). assert (K1 := H 1%nat ltac:(cbn; lia)). assert (K2 := H 2%nat ltac:(cbn; lia)). assert (K3 := H 3%nat ltac:(cbn; lia)). assert (K4 := H 4%nat ltac:(cbn; lia)). assert (K5 := H 5%nat ltac:(cbn; lia)). clear H.
  unfold side, cyc, hexagon, P in K0, K1, K2, K3, K4, K5. unfold X, Y in K0, K1, K2, K3, K4, K5. cbn [map nth length Nat.modulo Nat.divmod Nat.sub fst snd vx vy] in K0, K1, K2, K3, K4, K5.
  set (x := X w - X o). set (y := Y w - Y o). set (a := sqrt 3 / 2 * x + y / 2). set (b := sqrt 3 / 2 * x - y / 2). set (m := r * (sqrt 3 / 2)).
  assert (G : forall t, 0 < r * t -> 0 < t) by (intros t T; apply Rnot_le_lt; intros L; nra).
  assert (A1 : - m < a) by (apply Rminus_lt; cut (0 < a + m); [lra|]; apply G; unfold a, m, x, y, X, Y; lra).
  assert (A2 : a < m) by (cut (0 < m - a); [lra|]; apply G; unfold a, m, x, y, X, Y; lra).
  assert (B1 : - m < b) by (cut (0 < b + m); [lra|]; apply G; unfold b, m, x, y, X, Y; lra).
  assert (B2 : b < m) by (cut (0 < m - b); [lra|]; apply G; unfold b, m, x, y, X, Y; lra).
  assert (C1 : - m < y) by (cut (0 < y + m); [lra|]; apply G; unfold m, y, Y; lra).
  assert (C2 : y < m) by (cut (0 < m - y); [lra|]; apply G; unfold m, y, Y; lra).
  pose proof (three_strips a b m (conj A1 A2) (conj B1 B2)) as T. replace (a - b) with y in T by (unfold a, b; field). specialize (T (conj C1 C2)).
  assert (S1 : sqrt 3 / 2 * x * (sqrt 3 / 2 * x) = 3 / 4 * (x * x)) by (replace (sqrt 3 / 2 * x * (sqrt 3 / 2 * x)) with (sqrt 3 * sqrt 3 / 4 * (x * x)) by field; rewrite Q3; field).
  assert (S2 : m * m = 3 / 4 * (r * r)) by (unfold m; replace (r * (sqrt 3 / 2) * (r * (sqrt 3 / 2))) with (sqrt 3 * sqrt 3 / 4 * (r * r)) by field; rewrite Q3; field).
  assert (S3 : a * a - a * b + b * b = sqrt 3 / 2 * x * (sqrt 3 / 2 * x) + 3 / 4 * (y * y)) by (unfold a, b; field).
  rewrite S3, S1, S2 in T. unfold edist2, sqdist2, Rsqr. fold x y. rewrite <- (sqrt_square r) by lra. apply sqrt_lt_1_alt. split; [nra|lra].
Qed.
Lemma inside_toward (l : list pt) c w k : l <> [] -> (forall n, (n < length l)%nat -> 0 <= side (cyc l n) (cyc l (S n)) c) -> strictly_inside l w -> 0 < k <= 1 -> forall z, X z = X (at2 c w k) -> Y z = Y (at2 c w k) -> strictly_inside l z.
Proof.
  intros NE HC (_ & HW) K z EX EY. split; [exact NE|]. intros n N. specialize (HC n N). specialize (HW n N). rewrite (proj1 (at2_xy _ _ _)) in EX. rewrite (proj2 (at2_xy _ _ _)) in EY.
  assert (ES : side (cyc l n) (cyc l (S n)) z = (1 - k) * side (cyc l n) (cyc l (S n)) c + k * side (cyc l n) (cyc l (S n)) w) by (unfold side at 1; rewrite EX, EY; unfold side; ring).
  rewrite ES. nra.
Qed.
Lemma min_all l m : minList l = Ok m -> forall x, In x l -> m <= x.
Proof.
  destruct l as [|a l]; [discriminate|]. intros E. apply Ok_inj in E. subst m.
  assert (G : forall l a, fold_left (@pmin Rnum) l a <= a /\ forall x, In x l -> fold_left (@pmin Rnum) l a <= x).
  { clear l a. induction l as [|b l IH]; intros a; cbn [fold_left]; [split; [apply Rle_refl|intros x []]|]. destruct (IH (@pmin Rnum a b)) as (I1 & I2). split; [apply (Rle_trans _ _ _ I1), pmin_le1|].
    intros x [<-|I]; [apply (Rle_trans _ _ _ I1), pmin_le|apply I2, I]. }
  intros x [<-|I]; [apply (proj1 (G l a))|apply (proj2 (G l a)), I].
Qed.

Lemma Forall2_nth' {A B} (Q : A -> B -> Prop) l m : Forall2 Q l m -> forall i a, nth_error l i = Some a -> exists b, nth_error m i = Some b /\ Q a b.
Proof. induction 1 as [|x y l m H HF IH]; intros i b E; destruct i as [|i]; try discriminate; [injection E as <-; exists y; auto|apply IH, E]. Qed.
Section At.
Variable h : @hex_cfg Rnum.
Notation R0 := (@maxRadius Rnum h).
Variable E : list pt.
Definition inside_border (w : pt) : Prop := contains2D E w = Ok true /\ forall n, (n < length E)%nat -> ~ on_seg2 (cyc E n) (cyc E (S n)) w.
Lemma full_inside x y cd ds w : 0 < R0 -> mapM (fun s => sdistance2D s (P x y 0)) (toSegments E true) = Ok ds -> minList ds = Ok cd -> R0 <= cd ->
  contains2D E (P x y 0) = Ok true -> strictly_inside (hexagon (P x y 0) R0) w -> inside_border w.
Proof.
  intros HR HD HM L C HW. set (o := P x y 0) in *. pose proof (hexagon_disc o R0 w HR HW) as DW.
  assert (FAR : forall n z, (n < length E)%nat -> on_seg2 (cyc E n) (cyc E (S n)) z -> R0 <= edist2 z o).
  { intros n z N O. assert (IS : In (mkSeg (cyc E n) (cyc E (S n))) (toSegments E true)) by (rewrite segs_index; apply in_map_iff; exists n; split; [reflexivity|apply in_seq; lia]).
    apply mapM_ok in HD. apply In_nth_error in IS. destruct IS as (k & IS). destruct (Forall2_nth' _ _ _ HD k _ IS) as (d & Id & Ed).
    destruct (sdistance2D_spec (mkSeg (cyc E n) (cyc E (S n))) o) as (d' & Ed' & _ & LD). rewrite Ed in Ed'. apply Ok_inj in Ed'. subst d'. specialize (LD z O).
    apply nth_error_In in Id. pose proof (min_all _ _ HM d Id). change (R0 <= edist2 z o). apply (Rle_trans _ cd); [exact L|]. apply (Rle_trans _ d); assumption. }
  split.
  - rewrite <- C. symmetry. apply contains_path. intros n N z (k & K & EX & EY) O. pose proof (FAR n z N O) as F. rewrite (proj1 (at2_xy _ _ _)) in EX. rewrite (proj2 (at2_xy _ _ _)) in EY.
    assert (LE : edist2 z o <= edist2 w o). { unfold edist2, sqdist2, Rsqr. apply sqrt_le_1_alt. rewrite EX, EY. assert (K2 : k * k <= 1) by nra.
      replace ((X o + k * (X w - X o) - X o) * (X o + k * (X w - X o) - X o) + (Y o + k * (Y w - Y o) - Y o) * (Y o + k * (Y w - Y o) - Y o)) with (k * k * ((X w - X o) * (X w - X o) + (Y w - Y o) * (Y w - Y o))) by ring.
      apply Rle_trans with (1 * ((X w - X o) * (X w - X o) + (Y w - Y o) * (Y w - Y o))); [|rewrite Rmult_1_l; apply Rle_refl]. apply Rmult_le_compat_r; [|exact K2]. apply Rplus_le_le_0_compat; apply Rle_0_sqr. }
    lra.
  - intros n N O. pose proof (FAR n w N O). lra.
Qed.
Definition fits (hx pin : list pt) (b : R * option pt) : Prop := 0 <= fst b /\ forall c, snd b = Some c -> 0 < fst b /\ exists i f1, (i < 6)%nat /\ c = hexPt hx i 0 /\ contains2D E c = Ok true /\
  foldM (pointFactor hx i) 1 pin = Ok f1 /\ foldM (segFactor hx i (toSegments E true)) f1 [1; 2; 3; 4; 5]%nat = Ok (fst b).
Lemma step_fits hx pin b i b' : (i < 6)%nat -> fits hx pin b -> scaleStep E (toSegments E true) hx pin b i = Ok b' -> fits hx pin b'.
Proof.
  intros I H Q. unfold scaleStep in Q. cbv zeta in Q. apply bind_ok in Q. destruct Q as (inside & EI & Q). destruct inside; [|apply Ok_inj in Q; subst; exact H].
  apply bind_ok in Q. destruct Q as (f1 & E1 & Q). apply bind_ok in Q. destruct Q as (f2 & E2 & Q). apply Ok_inj in Q.
  match type of Q with (if ?b then _ else _) = _ => destruct b eqn:C end; subst b'; [|exact H]. change (Rltb (fst b) f2 = true) in C. apply Rltb_true in C. destruct H as (HP & _).
  split; [cbn [fst]; lra|]. cbn [fst snd]. intros c Q. injection Q as <-. split; [lra|]. exists i, f1. auto.
Qed.
Lemma hexAt_inside x y hs hx w : 0 < R0 -> hexAt h E (toSegments E true) x y = Ok hs -> In hx hs -> clear_of E (hexagon (P x y 0) R0) -> strictly_inside hx w -> inside_border w.
Proof.
  intros HR Q I CL HW. unfold hexAt in Q. cbv zeta in Q. apply bind_ok in Q. destruct Q as (ds & ED & Q). apply bind_ok in Q. destruct Q as (cd & EM & Q). rewrite (hexagonAt_eq h x y) in Q.
  match type of Q with (if ?b then _ else _) = _ => destruct b eqn:C end.
  - change (Rleb R0 cd = true) in C. apply Rleb_true in C. apply bind_ok in Q. destruct Q as (b & EB & Q). apply Ok_inj in Q. destruct b; subst hs; [|destruct I]. destruct I as [<-|[]].
    apply (full_inside x y cd ds w HR ED EM C EB HW).
  - clear C. apply bind_ok in Q. destruct Q as (pin & EP & Q). apply bind_ok in Q. destruct Q as (best & EB & Q).
    assert (F : fits (hexagon (P x y 0) R0) pin best).
    { revert EB. apply (foldM_inv (fits (hexagon (P x y 0) R0) pin)); [intros a i a' J H S; apply in_seq in J; apply (step_fits _ _ _ i _ ltac:(lia) H S)|]. split; [apply Rle_refl|]. cbn [snd]. discriminate. }
    match type of Q with (if ?b then _ else _) = _ => destruct b eqn:C end; [|apply Ok_inj in Q; subst hs; destruct I]. destruct best as (f & [c|]); [|discriminate]. cbn [fst snd] in *. apply Ok_inj in Q. subst hs. destruct I as [<-|[]].
    destruct F as (_ & F). cbn [fst snd] in F. destruct (F c eq_refl) as (Hf & i & f1 & Hi & -> & HC & E1 & E2).
    pose proof (scaled_clear E (P x y 0) R0 i pin f1 f HR Hi CL EP E1 E2 Hf) as SC. split; [|apply SC, HW].
    set (o := P x y 0) in *. set (hh := escaled (hexagon o R0) f (hexPt (hexagon o R0) i 0)) in *. set (c := hexPt (hexagon o R0) i 0) in *.
    rewrite <- HC. symmetry. apply contains_path. intros n N z (k & K & EX & EY) O. destruct (Req_dec k 0) as [K0|K0].
    + assert (IC : In c (hexagon o R0)) by apply corner_in. destruct (CL n c c c N IC IC IC) as (_ & NC & _). apply NC. destruct O as (t & T & A & B). exists t. split; [exact T|]. rewrite <- A, <- B, EX, EY, K0. rewrite (proj1 (at2_xy _ _ _)), (proj2 (at2_xy _ _ _)). lra.
    + apply (SC z) with (n := n); [|exact N|exact O]. apply (inside_toward hh c w k); [discriminate| |exact HW|lra|exact EX|exact EY].
      intros m M. change (length hh) with 6%nat in M. pose proof C_pos as CP. specialize (CP R0 HR).
      (* c is a corner of the scaled hexagon *)
      assert (GE : forall j, (j < 6)%nat -> 0 <= side (hexPt hh i (S j)) (hexPt hh i j) c).
      { intros j J. unfold hh, c. rewrite (scaled_pt o R0 i f (S j)), (scaled_pt o R0 i f j). rewrite (side_scaled o R0 i f (hexPt (hexagon o R0) i (S j)) (hexPt (hexagon o R0) i j) (hexPt (hexagon o R0) i 0)).
        rewrite side_tab by lia. set (q := nth ((j + 7 - 0) mod 6) steps6 0). assert (Q0 : 0 <= q) by (unfold q, steps6; do 6 (destruct j as [|j]; [cbn; lra|]); lia).
        replace (f * (R0 * R0 * (sqrt 3 / 2) * q - (1 - f) * (R0 * R0 * (sqrt 3 / 2) * q))) with (f * f * (R0 * R0 * (sqrt 3 / 2)) * q) by ring.
        apply Rmult_le_pos; [|exact Q0]. apply Rmult_le_pos; [nra|lra]. }
      assert (EJ : exists j, (j < 6)%nat /\ cyc hh m = hexPt hh i (S j) /\ cyc hh (S m) = hexPt hh i j).
      { exists ((i + 5 - m) mod 6)%nat. split; [apply Nat.mod_upper_bound; discriminate|]. clear - Hi M. unfold cyc, hexPt. change (length hh) with 6%nat. clearbody hh.
        change origin with (@vzero Rnum). do 6 (destruct i as [|i]; [do 6 (destruct m as [|m]; [split; reflexivity|]); lia|]). lia. }
      destruct EJ as (j & J & -> & ->). apply GE, J.
Qed.
End At.
