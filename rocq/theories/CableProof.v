(** The channel of the cable: the bump behind the wall and the hump of the bracket above it. *)
From Coq Require Import Reals Lra Psatz ZArith List Bool Arith Lia.
From Verif Require Import Num GeoModel EdgeModel GeoSpec GeoMat GeoRigid GeoPlane GeoCirc ArcModel ArcSpec ArcProof ArcCorner ArcShape P_Arc MeshModel LayoutModel LayoutProof BracketModel BumperModel EdgeReal PartProof BodyFlat BossSpec BossProof BrSpec BrProof.
Import ListNotations.
Open Scope R_scope.

Lemma first_is {A} (l : list A) x : pyidx l 0 = Ok x -> exists r, l = x :: r.
Proof. rewrite pyidx_first. destruct l as [|a r]; [discriminate|]. intros H. apply Ok_inj in H. subst. eauto. Qed.
Lemma last_is {A} (l : list A) x : pyidx l (-1)%Z = Ok x -> exists r, l = r ++ [x].
Proof.
  rewrite pyidx_last. intros H. destruct (rev l) as [|a r] eqn:E; [discriminate|]. apply Ok_inj in H. subst a. exists (rev r).
  rewrite <- (rev_involutive l), E. reflexivity.
Qed.
Lemma hd_is {A} (l : list A) x d : pyidx l 0 = Ok x -> hd d l = x.
Proof. intros H. apply first_is in H. destruct H as (r & ->). reflexivity. Qed.
Lemma end_is {A} (l : list A) x d : pyidx l (-1)%Z = Ok x -> last l d = x.
Proof. intros H. apply last_is in H. destruct H as (r & ->). apply last_last. Qed.
Lemma last_map {A B} (f : A -> B) l d e : l <> [] -> last (map f l) e = f (last l d).
Proof. intros H. destruct (exists_last H) as (r & x & ->). rewrite map_app, last_last. cbn [map]. apply last_last. Qed.
Lemma map_some {A B} (f : A -> B) l : l <> [] -> map f l <> [].
Proof. destruct l; [contradiction|discriminate]. Qed.
Lemma made_by {A B} (f : A -> res B) l l' y : mapM f l = Ok l' -> In y l' -> exists x, In x l /\ f x = Ok y.
Proof. intros H. apply mapM_ok in H. induction H as [|a b l l' E H IH]; [contradiction|]. intros [<-|I]; [exists a; split; [left; reflexivity|exact E]|]. destruct (IH I) as (x & IX & EX). exists x. split; [right; exact IX|exact EX]. Qed.
Lemma hd_map {A B} (f : A -> B) l d e : l <> [] -> hd e (map f l) = f (hd d l).
Proof. destruct l; [contradiction|reflexivity]. Qed.

Section Arcs.
Variable q : @quality Rnum.
Hypothesis HA : 0 < maxChordAngle q.
Hypothesis HH : 0 < maxChordHeight q.
Lemma arc_some (r s sp : R) (ce : pt) l : r = 0 \/ eps <= r -> sp <> 0 -> @arc2D Rnum q r s sp ce = Ok l -> l <> [] /\ (eps <= r -> Rabs sp <= PI -> exists x y r', l = x :: y :: r').
Proof.
  intros HR NS H. pose proof eps_pos as EP. destruct HR as [HR|HR].
  - subst r. split; [|intros; lra]. unfold arc2D in H. destruct (nltb (Num := Rnum) (0 : R) (nQ 1 1000000)) eqn:C; [|change (Rltb 0 eps = false) in C; apply Rltb_false in C; lra].
    apply Ok_inj in H. subst l. discriminate.
  - destruct (Rle_dec (maxChordHeight q) (2 * r)) as [L|L].
    + destruct q as [h amax]. cbn [maxChordAngle maxChordHeight] in *. destruct (arc_form h amax r s sp ce HR (conj HH L) HA NS) as (n & N1 & _ & F1 & F2).
      assert (D : full_turn (turn_limited sp) \/ ~ full_turn (turn_limited sp)).
      { unfold full_turn. destruct (Rle_dec (Rabs (Rabs (turn_limited sp) - 2 * PI)) eps); [left|right]; assumption. }
      destruct D as [D|D].
      * rewrite (F1 D) in H. apply Ok_inj in H. subst l. destruct n as [|n]; [lia|]. split; [discriminate|]. intros _ HS. exfalso. unfold full_turn in D. rewrite turn_limited_id in D by (pose proof PI_RGT_0; lra).
        rewrite Rabs_left1 in D by (pose proof PI_RGT_0; lra). pose proof PI2_3_2. unfold eps, PI2 in *. lra.
      * rewrite (F2 D) in H. apply Ok_inj in H. subst l. split; [discriminate|]. intros _ _. destruct n as [|n]; [lia|]. cbn [seq map]. eauto.
    + exfalso. unfold arc2D in H. destruct (nltb (Num := Rnum) r (nQ 1 1000000)) eqn:C; [change (Rltb r (1 / 1000000) = true) in C; apply Rltb_true in C; unfold eps in HR; lra|].
      apply bind_ok in H. destruct H as (h & E & H). apply pdiv_ok in E. destruct E as [_ E]. apply bind_ok in H. destruct H as (a & EA & _).
      assert (Q : 2 < h). { rewrite E. apply Rmult_lt_reg_r with r; [lra|]. unfold Rdiv. rewrite Rmult_assoc, Rinv_l by lra. lra. }
      rewrite pacos_err in EA; [discriminate|]. left. change (1 - h < -1). lra.
Qed.
Lemma half_hole_ends (taper : option R) (r : R) l : eps <= r -> (match taper with Some al => al < PI | None => True end) ->
  @uprightHalfHole2D Rnum q taper r = Ok l -> l <> [] /\ hd vzero l = P r 0 0 /\ last l vzero = P (- r) 0 0.
Proof.
  intros HR HT H. pose proof eps_pos as EP. pose proof PI_RGT_0 as PP.
  assert (ARC : @arc2D Rnum q r (nZ 0) npi vzero = Ok l -> l <> [] /\ hd vzero l = P r 0 0 /\ last l vzero = P (- r) 0 0).
  { intros A. change (@arc2D Rnum q r 0 PI vzero = Ok l) in A. destruct (arc_some r 0 PI vzero l (or_intror HR) ltac:(lra) A) as [NE _]. split; [exact NE|].
    destruct (arc_ends q r 0 PI vzero l (or_intror HR) ltac:(rewrite Rabs_right; lra) A eq_refl NE) as [A1 A2]. rewrite A1, A2. replace (0 + PI) with PI by ring. rewrite cos_0, sin_0, cos_PI, sin_PI.
    split; (apply pt_ext; [match goal with |- X (P ?a _ _) = X (P ?b _ _) => change (a = b) end; change (X vzero) with 0; ring|match goal with |- Y (P _ ?a _) = Y (P _ ?b _) => change (a = b) end; change (Y vzero) with 0; ring|reflexivity]). }
  unfold uprightHalfHole2D in H. destruct taper as [al|]; [|exact (ARC H)]. destruct (nltb (nZ 0) (al : @num Rnum)) eqn:C; [|exact (ARC H)]. change (Rltb 0 al = true) in C. apply Rltb_true in C. clear ARC.
  apply bind_ok in H. destruct H as (e8 & E8 & H). apply pdiv_ok in E8. destruct E8 as [_ E8]. apply bind_ok in H. destruct H as (arc & EA & H). apply bind_ok in H. destruct H as (hf & _ & H). apply bind_ok in H. destruct H as (x & _ & H). cbv zeta in H. apply Ok_inj in H.
  assert (E8' : e8 = 2 * PI / 8) by exact E8. change (@arc2D Rnum q r 0 e8 vzero = Ok arc) in EA. destruct (arc_some r 0 e8 vzero arc (or_intror HR) ltac:(rewrite E8'; lra) EA) as [NE _].
  destruct (arc_ends q r 0 e8 vzero arc (or_intror HR) ltac:(rewrite E8', Rabs_right; lra) EA eq_refl NE) as [A1 _].
  destruct arc as [|a0 arc]; [contradiction|]. cbn [hd] in A1. assert (A0 : a0 = P r 0 0).
  { rewrite A1, cos_0, sin_0. apply pt_ext; [match goal with |- X (P ?a _ _) = X (P ?b _ _) => change (a = b) end; change (X vzero) with 0; ring|match goal with |- Y (P _ ?a _) = Y (P _ ?b _) => change (a = b) end; change (Y vzero) with 0; ring|reflexivity]. }
  subst l. split; [discriminate|]. split; [exact A0|]. unfold emirX. cbn [app map rev]. rewrite app_comm_cons, app_assoc. rewrite last_last. rewrite A0. apply pt_ext; reflexivity.
Qed.
End Arcs.

Section Cable.
Variable q : @quality Rnum.
Variable taper : option R.
Variable bc : @bracket_cfg Rnum.
Variable k : @cable_cfg Rnum.
Let bend : R := ca_minBendRadius k.
Let bump : R := ca_bumpRadius k.
Let r : R := ca_diameter k / 2.
Let fillet : R := ca_exitFillet k.
Hypothesis HA : 0 < maxChordAngle q.
Hypothesis HH : 0 < maxChordHeight q.
Hypothesis HR : eps <= r.
Hypothesis HB : eps <= bend.
Hypothesis HU : bump = 0 \/ eps <= bump.
Hypothesis HUB : bump <= bend.
Hypothesis HF : fillet = 0 \/ eps <= fillet.
Hypothesis HT : match taper with Some al => al < PI | None => True end.
Hypothesis HBT : 0 <= ca_bumpTaper k < PI / 2.

Lemma edist_sq (a b : pt) (m : R) : 0 <= m -> (X a - X b) * (X a - X b) + (Y a - Y b) * (Y a - Y b) + (Z a - Z b) * (Z a - Z b) = m * m -> edist a b = m.
Proof. intros M E. unfold edist, sqdist, Rsqr. replace (_ + _ + _) with (m * m). apply sqrt_square, M. Qed.
Lemma edist_down (a b : pt) (m : R) : edist a b <= m -> Z a <= Z b + m.
Proof.
  intros H. unfold edist in H. assert (Q : Rabs (Z a - Z b) <= sqrt (sqdist a b)).
  { rewrite <- (sqrt_Rsqr_abs (Z a - Z b)). apply sqrt_le_1_alt. unfold sqdist, Rsqr. pose proof (Rle_0_sqr (X a - X b)) as Q1. pose proof (Rle_0_sqr (Y a - Y b)) as Q2. unfold Rsqr in *. lra. }
  pose proof (Rle_abs (Z a - Z b)). lra.
Qed.
(* a sketch of x and y drawn in the plane of y and z, at the centre B *)
Definition drawn (B p : pt) : pt := P (X B) (Y B - X p) (Z B + Y p).
Lemma drawn_dist B p : Z p = 0 -> edist (drawn B p) B = edist p origin.
Proof. intros Z0. unfold edist. f_equal. unfold sqdist, drawn, origin, Rsqr. repeat match goal with |- context [X (P ?a ?b ?c)] => change (X (P a b c)) with a | |- context [Y (P ?a ?b ?c)] => change (Y (P a b c)) with b | |- context [Z (P ?a ?b ?c)] => change (Z (P a b c)) with c end. rewrite Z0. ring. Qed.

Lemma diag_is d : vnorm (V (nZ 1) (nZ 1) (nZ 0)) = Ok d -> d = P (cos (PI / 4)) (sin (PI / 4)) 0.
Proof.
  intros H. apply vnorm_ok in H. destruct H as [_ E]. assert (L : len (V (nZ 1) (nZ 1) (nZ 0)) = sqrt 2).
  { unfold len, inner. f_equal. change (1 * 1 + 1 * 1 + 0 * 0 = 2). ring. }
  rewrite E, L, cos_PI4, sin_PI4. pose proof Rlt_sqrt2_0. apply pt_ext.
  - change (/ sqrt 2 * 1 = 1 / sqrt 2). field. lra.
  - change (/ sqrt 2 * 1 = 1 / sqrt 2). field. lra.
  - change (/ sqrt 2 * 0 = 0). ring.
Qed.
(* the tip of the bump *)
Let tip : pt := P ((bend - bump) * cos (PI / 4)) ((bend - bump) * sin (PI / 4)) 0.
Lemma tip_in a : edist (P (X tip + bump * cos a) (Y tip + bump * sin a) 0) origin <= bend.
Proof.
  pose proof eps_pos as EP. pose proof (sin2_cos2 a) as SC. pose proof (sin2_cos2 (PI / 4)) as S4. unfold Rsqr in *.
  eapply Rle_trans; [apply (edist_tri _ tip)|]. rewrite (edist_sq _ tip bump), (edist_sq tip origin (bend - bump)).
  - lra.
  - lra.
  - change (((bend - bump) * cos (PI / 4) - 0) * ((bend - bump) * cos (PI / 4) - 0) + ((bend - bump) * sin (PI / 4) - 0) * ((bend - bump) * sin (PI / 4) - 0) + (0 - 0) * (0 - 0) = (bend - bump) * (bend - bump)).
    transitivity ((bend - bump) * (bend - bump) * (sin (PI / 4) * sin (PI / 4) + cos (PI / 4) * cos (PI / 4))); [ring|rewrite S4; ring].
  - lra.
  - change ((X tip + bump * cos a - X tip) * (X tip + bump * cos a - X tip) + (Y tip + bump * sin a - Y tip) * (Y tip + bump * sin a - Y tip) + (0 - 0) * (0 - 0) = bump * bump).
    transitivity (bump * bump * (sin a * sin a + cos a * cos a)); [ring|rewrite SC; ring].
Qed.
Lemma bend_in a : edist (P (0 + bend * cos a) (0 + bend * sin a) 0) origin <= bend.
Proof.
  pose proof eps_pos as EP. pose proof (sin2_cos2 a) as SC. unfold Rsqr in *. rewrite (edist_sq _ origin bend); [lra|lra|].
  change ((0 + bend * cos a - 0) * (0 + bend * cos a - 0) + (0 + bend * sin a - 0) * (0 + bend * sin a - 0) + (0 - 0) * (0 - 0) = bend * bend).
  transitivity (bend * bend * (sin a * sin a + cos a * cos a)); [ring|rewrite SC; ring].
Qed.
(* the sketch of the bump: bend and tip; it starts above the centre and ends at the end of the tip *)
Lemma bend_form b1 b2 : @arc2D Rnum q bend (2 * PI / 4) (- (2 * PI) / 8) origin = Ok b1 -> @arc2D Rnum q bump (2 * PI / 8) (- (2 * PI) / 8) tip = Ok b2 ->
  let l := b1 ++ skipn 1 b2 in
  l <> [] /\ hd vzero l = P 0 bend 0 /\ last l vzero = P (X tip + bump) (Y tip) 0 /\ forall p, In p l -> Z p = 0 /\ edist p origin <= bend.
Proof.
  intros H1 H2. pose proof eps_pos as EP. pose proof PI_RGT_0 as PP. destruct (arc_some q HA HH bend (2 * PI / 4) (- (2 * PI) / 8) origin b1 (or_intror HB) ltac:(lra) H1) as [N1 _].
  destruct (arc_ends q bend (2 * PI / 4) (- (2 * PI) / 8) origin b1 (or_intror HB) ltac:(rewrite Rabs_left; lra) H1 eq_refl N1) as [A1 A2].
  destruct (arc_some q HA HH bump (2 * PI / 8) (- (2 * PI) / 8) tip b2 HU ltac:(lra) H2) as [N2 M2]. destruct (arc_ends q bump (2 * PI / 8) (- (2 * PI) / 8) tip b2 HU ltac:(rewrite Rabs_left; lra) H2 eq_refl N2) as [B1 B2].
  change (X origin) with 0 in A1, A2. change (Y origin) with 0 in A1, A2.
  assert (P1 : forall p, In p b1 -> Z p = 0 /\ edist p origin <= bend).
  { intros p IP. destruct (arc_between q bend (2 * PI / 4) (- (2 * PI) / 8) origin b1 (or_intror HB) ltac:(rewrite Rabs_left; lra) H1 eq_refl p IP) as (t & _ & ->). split; [reflexivity|apply bend_in]. }
  assert (P2 : forall p, In p b2 -> Z p = 0 /\ edist p origin <= bend).
  { intros p IP. destruct (arc_between q bump (2 * PI / 8) (- (2 * PI) / 8) tip b2 HU ltac:(rewrite Rabs_left; lra) H2 eq_refl p IP) as (t & _ & ->). split; [reflexivity|apply tip_in]. }
  cbv zeta. split; [destruct b1; [contradiction|discriminate]|]. split; [|split].
  - destruct b1 as [|x b1]; [contradiction|]. change (hd vzero (x :: b1)) with (hd vzero ((x :: b1) ++ skipn 1 b2)) in A1. rewrite A1. replace (2 * PI / 4) with (PI / 2) by field. rewrite cos_PI2, sin_PI2. f_equal; ring.
  - destruct HU as [U|U].
    + assert (S2 : skipn 1 b2 = []). { unfold arc2D in H2. rewrite U in H2. destruct (nltb (Num := Rnum) (0 : R) (nQ 1 1000000)) eqn:C; [|change (Rltb 0 eps = false) in C; apply Rltb_false in C; lra]. apply Ok_inj in H2. subst b2. reflexivity. }
      rewrite S2, app_nil_r, A2. unfold tip. rewrite U. replace (2 * PI / 4 + - (2 * PI) / 8) with (PI / 4) by field.
      apply pt_ext; [match goal with |- X (P ?a _ _) = X (P (X (P ?b _ _) + _) _ _) => change (a = b + 0) end; ring|match goal with |- Y (P _ ?a _) = Y (P _ (Y (P _ ?b _)) _) => change (a = b) end; ring|reflexivity].
    + destruct (M2 U ltac:(rewrite Rabs_left; lra)) as (x & y & r' & E2). rewrite E2 in B2 |- *. cbn [skipn]. assert (LL : last (b1 ++ y :: r') vzero = last (x :: y :: r') vzero).
      { assert (Q : y :: r' <> []) by discriminate. destruct (exists_last Q) as (z & w & ->). rewrite app_assoc, last_last. rewrite app_comm_cons, last_last. reflexivity. }
      rewrite LL, B2. replace (2 * PI / 8 + - (2 * PI) / 8) with 0 by field. rewrite cos_0, sin_0. apply pt_ext; [match goal with |- X (P ?a _ _) = X (P ?b _ _) => change (a = b) end; ring|match goal with |- Y (P _ ?a _) = Y (P _ ?b _) => change (a = b) end; ring|reflexivity].
  - intros p IP. apply in_app_or in IP. destruct IP as [IP|IP]; [exact (P1 p IP)|]. apply P2. destruct b2 as [|x b2]; [exact IP|right; exact IP].
Qed.
Lemma taper_form tx : @arc2D Rnum q bump 0 (- (2 * PI / 4 - ca_bumpTaper k)) tip = Ok tx -> tx <> [] /\ hd vzero tx = P (X tip + bump) (Y tip) 0 /\ (forall p, In p tx -> Z p = 0 /\ edist p origin <= bend) /\
  0 <= X (last tx vzero) /\ Y (last tx vzero) <= bend.
Proof.
  intros H. pose proof eps_pos as EP. pose proof PI_RGT_0 as PP. set (t := ca_bumpTaper k) in *. assert (AB : Rabs (- (2 * PI / 4 - t)) <= PI) by (rewrite Rabs_left; lra).
  destruct (arc_some q HA HH bump 0 (- (2 * PI / 4 - t)) tip tx HU ltac:(lra) H) as [N _]. split; [exact N|]. destruct (arc_ends q bump _ _ tip tx HU AB H eq_refl N) as [A1 A2]. split; [|split; [|split]].
  - rewrite A1, cos_0, sin_0. apply pt_ext; [match goal with |- X (P ?a _ _) = X (P ?b _ _) => change (a = b) end; ring|match goal with |- Y (P _ ?a _) = Y (P _ ?b _) => change (a = b) end; ring|reflexivity].
  - intros p IP. destruct (arc_between q bump _ _ tip tx HU AB H eq_refl p IP) as (a & _ & ->). split; [reflexivity|apply tip_in].
  - rewrite A2. replace (0 + - (2 * PI / 4 - t)) with (- (PI / 2 - t)) by field. rewrite cos_neg, cos_shift. change (0 <= (bend - bump) * cos (PI / 4) + bump * sin t).
    assert (0 < cos (PI / 4)) by (apply cos_gt_0; lra). assert (0 <= sin t) by (apply sin_ge_0; lra). assert (0 <= bump) by lra.
    assert (0 <= (bend - bump) * cos (PI / 4)) by (apply Rmult_le_pos; lra). assert (0 <= bump * sin t) by (apply Rmult_le_pos; lra). lra.
  - rewrite A2. replace (0 + - (2 * PI / 4 - t)) with (- (PI / 2 - t)) by field. rewrite sin_neg, sin_shift. change ((bend - bump) * sin (PI / 4) + bump * - cos t <= bend).
    pose proof (SIN_bound (PI / 4)) as [_ S1]. assert (0 < cos t) by (apply cos_gt_0; lra). assert (0 <= bump) by lra. assert (0 <= bump * cos t) by (apply Rmult_le_pos; lra).
    assert ((bend - bump) * sin (PI / 4) <= (bend - bump) * 1) by (apply Rmult_le_compat_l; lra). lra.
Qed.

Lemma scaled_ends (l : list pt) (s : R) (v : pt) : l <> [] -> etranslated (escaled l (s : @num Rnum) vzero) v <> [] /\
  hd vzero (etranslated (escaled l (s : @num Rnum) vzero) v) = vadd (vadd (vscale (vsub (hd vzero l) vzero) (s : @num Rnum)) vzero) v /\
  last (etranslated (escaled l (s : @num Rnum) vzero) v) vzero = vadd (vadd (vscale (vsub (last l vzero) vzero) (s : @num Rnum)) vzero) v.
Proof.
  intros N. unfold etranslated, escaled. split; [apply map_some, map_some, N|]. split.
  - rewrite (hd_map _ _ vzero vzero (map_some _ l N)), (hd_map _ l vzero vzero N). reflexivity.
  - rewrite (last_map _ _ vzero vzero (map_some _ l N)), (last_map _ l vzero vzero N). reflexivity.
Qed.
(* the arcs of the hole: each starts above and ends below the cable, behind the inner face of the wall *)
Lemma hole_ends (pos : pt) (th : R) first rest : cableHoleArcs q taper k pos th = Ok (first, rest) -> fillet <= th ->
  (first <> [] /\ last first vzero = P (X pos) (Y pos) (Z pos - 2 * r)) /\
  forall a, In a (first :: rest) -> a <> [] /\ (X (hd vzero a) = X pos /\ Y pos <= Y (hd vzero a) /\ Z pos <= Z (hd vzero a)) /\
    (X (last a vzero) = X pos /\ Y pos <= Y (last a vzero) /\ Z (last a vzero) <= Z pos - 2 * r).
Proof.
  intros H TH. pose proof eps_pos as EP. pose proof PI_RGT_0 as PP. unfold cableHoleArcs in H. cbv zeta in H. apply bind_ok in H. destruct H as (fa & EF & H). apply bind_ok in H. destruct H as (ha & EH & H).
  apply bind_ok in H. destruct H as (rs & ER & H). apply Ok_inj in H. apply pair_inj in H. destruct H as [E1 E2].
  change (@uprightHalfHole2D Rnum q taper r = Ok ha) in EH. destruct (half_hole_ends q HA HH taper r ha HR HT EH) as (NE & HD & LA).
  match type of E1 with etranslated ?l _ = _ => set (hz := l) in * end. assert (NZ : hz <> []) by (apply map_some; exact NE).
  assert (HZ : hd vzero hz = P 0 0 r) by (unfold hz; rewrite (hd_map _ ha vzero vzero NE), HD; reflexivity). assert (LZ : last hz vzero = P 0 0 (- r)) by (unfold hz; rewrite (last_map _ ha vzero vzero NE), LA; reflexivity). clearbody hz.
  assert (F0 : first <> [] /\ hd vzero first = P (X pos) (Y pos) (Z pos) /\ last first vzero = P (X pos) (Y pos) (Z pos - 2 * r)).
  { rewrite <- E1. unfold etranslated. split; [apply map_some; exact NZ|]. rewrite (hd_map _ hz vzero vzero NZ), (last_map _ hz vzero vzero NZ), HZ, LZ. split; (apply pt_ext; [match goal with |- _ = X (P ?a _ _) => change (0 + (X pos + 0) = a) end; ring|match goal with |- _ = Y (P _ ?a _) => change (0 + (Y pos + 0) = a) end; ring|]).
    - change (r + (Z pos + - r) = Z pos). ring.
    - change (- r + (Z pos + - r) = Z pos - 2 * r). ring. }
  destruct F0 as (N0 & H0 & L0). split; [split; assumption|]. intros a [<-|IA].
  - split; [exact N0|]. rewrite H0, L0. split; (split; [reflexivity|split; [change (Y pos <= Y pos); lra|]]); [change (Z pos <= Z pos); lra|change (Z pos - 2 * r <= Z pos - 2 * r); lra].
  - rewrite <- E2 in IA. destruct (made_by _ _ _ _ ER IA) as (p & IP & EA). apply in_map_iff in IP. destruct IP as (p0 & <- & IP).
    apply bind_ok in EA. destruct EA as (s & ES & EA). apply Ok_inj in EA. apply pdiv_ok in ES. destruct ES as [_ ES].
    change (@arc2D Rnum q fillet 0 (2 * PI / 4) vzero = Ok fa) in EF. destruct (arc_between q fillet 0 (2 * PI / 4) vzero fa HF ltac:(rewrite Rabs_right; lra) EF eq_refl p0 IP) as (t & BT & P0).
    assert (T : 0 <= t <= PI / 2) by (destruct BT as [BT|BT]; lra). assert (F00 : 0 <= fillet) by lra. assert (XF : X p0 <= fillet).
    { rewrite P0. change (0 + fillet * cos t <= fillet). pose proof (COS_bound t) as [_ C1]. assert (fillet * cos t <= fillet * 1) by (apply Rmult_le_compat_l; lra). lra. }
    assert (YF : 0 <= Y p0). { rewrite P0. change (0 <= 0 + fillet * sin t). assert (0 <= sin t) by (apply sin_ge_0; lra). assert (0 <= fillet * sin t) by (apply Rmult_le_pos; lra). lra. }
    assert (ES' : s = (fillet - X p0) / r) by exact ES. assert (SR : r * (1 + s) = r + (fillet - X p0)) by (rewrite ES'; field; lra).
    rewrite <- EA. match goal with |- etranslated (escaled hz ?a vzero) ?b <> [] /\ _ => destruct (scaled_ends hz a b NZ) as (S1 & S2 & S3) end.
    change (@last pt hz vzero) with (@last (@vec Rnum) hz vzero) in S3. change (@hd pt vzero hz) with (@hd (@vec Rnum) vzero hz) in S2. rewrite HZ in S2. rewrite LZ in S3. rewrite S2, S3. split; [exact S1|].
    split; (split; [|split]).
    + change ((0 - 0) * (1 + s) + 0 + (X pos + 0 + 0) = X pos). ring.
    + change (Y pos <= (0 - 0) * (1 + s) + 0 + (Y pos + (th - fillet) + Y p0)). lra.
    + change (Z pos <= (r - 0) * (1 + s) + 0 + (Z pos + - r + 0)). lra.
    + change ((0 - 0) * (1 + s) + 0 + (X pos + 0 + 0) = X pos). ring.
    + change (Y pos <= (0 - 0) * (1 + s) + 0 + (Y pos + (th - fillet) + Y p0)). lra.
    + change ((- r - 0) * (1 + s) + 0 + (Z pos + - r + 0) <= Z pos - 2 * r). lra.
Qed.

Lemma cable_form (pos : pt) (th : R) cab : newCable q taper bc k pos th = Ok cab -> fillet <= th ->
  let B := P (X pos) (Y pos) (Z pos - 2 * r - bend) in
  (forall p, In p (caShort cab) -> X p = X pos /\ (edist p B <= bend \/ (Y pos <= Y p /\ Z p <= Z pos - 2 * r))) /\
  (forall p, In p (caSplitT cab) -> X p = X pos /\ Y pos <= Y p /\ Z pos <= Z p) /\
  caSplitG cab = collapsed (caShort cab) (1 / 1000).
Proof.
  intros H TH B. pose proof eps_pos as EP. pose proof PI_RGT_0 as PP. unfold newCable in H. cbv zeta in H.
  apply bind_ok in H. destruct H as ((first & rest) & EHA & H). destruct (hole_ends pos th first rest EHA TH) as ((NF & LF) & ARCS).
  apply bind_ok in H. destruct H as (dg & ED & H). apply diag_is in ED. subst dg.
  apply bind_ok in H. destruct H as (b1 & EB1 & H). apply bind_ok in H. destruct H as (b2 & EB2 & H). apply bind_ok in H. destruct H as (fe & EFE & H). apply bind_ok in H. destruct H as (s0 & ES0 & H).
  apply bind_ok in H. destruct H as (tf & ETF & H). apply pdiv_ok in ETF. destruct ETF as [_ ETF]. apply bind_ok in H. destruct H as (tx & ETX & H). apply bind_ok in H. destruct H as (te & ETE & H). apply bind_ok in H. destruct H as (s1 & ES1 & H).
  apply bind_ok in H. destruct H as (ge & _ & H). apply bind_ok in H. destruct H as (gee & _ & H). apply bind_ok in H. destruct H as (g0 & EG0 & H). apply bind_ok in H. destruct H as (g0e & EG0E & H). apply bind_ok in H. destruct H as (t0 & ET0 & H).
  apply bind_ok in H. destruct H as (beb & _ & H). apply bind_ok in H. destruct H as (u0 & _ & H). apply bind_ok in H. destruct H as (ue & _ & H). apply bind_ok in H. destruct H as (tle & _ & H).
  apply bind_ok in H. destruct H as (spt & ESPT & H). apply bind_ok in H. destruct H as (ends & EENDS & H). apply Ok_inj in H. rewrite <- H. cbn [caShort caSplitT caSplitG]. clear H.
  change (@arc2D Rnum q bend (2 * PI / 4) (- (2 * PI) / 8) origin = Ok b1) in EB1.
  assert (ETIP : vscale (P (cos (PI / 4)) (sin (PI / 4)) 0) (nsub (ca_minBendRadius k) (ca_bumpRadius k)) = tip).
  { apply pt_ext; [change (cos (PI / 4) * (bend - bump) = (bend - bump) * cos (PI / 4)); ring|change (sin (PI / 4) * (bend - bump) = (bend - bump) * sin (PI / 4)); ring|change (0 * (bend - bump) = 0); ring]. }
  rewrite ETIP in EB2, ETX. clear ETIP. change (@arc2D Rnum q bump (2 * PI / 8) (- (2 * PI) / 8) tip = Ok b2) in EB2. change (@arc2D Rnum q bump 0 (- (2 * PI / 4 - ca_bumpTaper k)) tip = Ok tx) in ETX.
  destruct (bend_form b1 b2 EB1 EB2) as (NL & HL & LL & AL). cbv zeta in NL, HL, LL, AL. destruct (taper_form tx ETX) as (NT & HX & AT & X0 & Y0).
  set (l := b1 ++ skipn 1 b2) in *. clearbody l. apply (end_is _ _ vzero) in EFE. change (@last pt first vzero) with (@last (@vec Rnum) first vzero) in LF. rewrite LF in EFE. clear EB1 EB2.
  apply (hd_is _ _ vzero) in ES0. rewrite (hd_map _ l vzero vzero NL) in ES0. change (@hd pt vzero l) with (@hd (@vec Rnum) vzero l) in HL. rewrite HL in ES0.
  set (bd := @etranslated Rnum _ _) in *.
  assert (EBD : bd = map (drawn B) l).
  { unfold bd, etranslated. rewrite map_map. apply map_ext. intros p. rewrite <- EFE, <- ES0. apply pt_ext.
    - change (0 + (X pos - 0) = X pos). ring.
    - change (- X p + (Y pos - - 0) = Y pos - X p). ring.
    - change (Y p + (Z pos - 2 * r - bend) = Z pos - 2 * r - bend + Y p). ring. }
  clearbody bd. subst bd. apply (hd_is _ _ vzero) in ES1. assert (ES2 : s1 = drawn B (P 0 bend 0)) by (rewrite <- HL; transitivity (hd vzero (map (drawn B) l)); [symmetry; exact ES1|exact (hd_map (drawn B) l vzero vzero NL)]).
  assert (SF : s1 = fe). { rewrite ES2, <- EFE. apply pt_ext; [reflexivity|change (Y pos - 0 = Y pos); ring|change (Z pos - 2 * r - bend + bend = Z pos - 2 * r); ring]. }
  assert (EG : g0 = map (drawn B) l).
  { apply first_is in EG0. destruct EG0 as (rr & EG0). destruct (exists_last NF) as (fi & fl & EFI). rewrite EFI in EG0, LF. rewrite last_last in LF. assert (EFL : fl = fe) by (rewrite LF; exact EFE).
    assert (SK : exists sk, skipn (Nat.div (length (fi ++ [fl])) 2) (fi ++ [fl]) = sk ++ [fl]).
    { rewrite skipn_app. rewrite app_length. cbn [length]. replace (Nat.div (length fi + 1) 2 - length fi)%nat with 0%nat; [exists (skipn (Nat.div (length fi + 1) 2) fi); reflexivity|].
      pose proof (Nat.div_le_upper_bound (length fi + 1) 2 (length fi + 1) ltac:(lia) ltac:(lia)). destruct (length fi) as [|m]; [reflexivity|]. pose proof (Nat.div_lt (S m + 1) 2 ltac:(lia) ltac:(lia)). lia. }
    destruct SK as (sk & SK). rewrite SK, rev_app_distr in EG0. cbn [rev app map] in EG0. injection EG0 as EG0 _. rewrite <- EG0. unfold etranslated. rewrite map_map. apply map_ext. intros p. rewrite SF, EFL. apply pt_ext.
    - match goal with |- ?u = ?v => change (X (drawn B p) + (X fe - X fe) = X (drawn B p)) end. ring.
    - match goal with |- ?u = ?v => change (Y (drawn B p) + (Y fe - Y fe) = Y (drawn B p)) end. ring.
    - match goal with |- ?u = ?v => change (Z (drawn B p) + (Z fe - Z fe) = Z (drawn B p)) end. ring. }
  subst g0. apply (end_is _ _ vzero) in EG0E. assert (EG1 : g0e = drawn B (P (X tip + bump) (Y tip) 0)) by (rewrite <- LL; transitivity (last (map (drawn B) l) vzero); [symmetry; exact EG0E|exact (last_map (drawn B) l vzero vzero NL)]).
  apply (end_is _ _ vzero) in ETE. change (@last pt tx vzero) with (@last (@vec Rnum) tx vzero) in X0, Y0. rewrite ETE in X0, Y0.
  set (tl := tx ++ [V (nZ 0) (nsub (vy te) (nmul (vx te) tf)) (nZ 0)]) in *.
  assert (NTL : tl <> []) by (unfold tl; destruct tx; discriminate).
  assert (HTL : hd vzero tl = P (X tip + bump) (Y tip) 0) by (rewrite <- HX; unfold tl; destruct tx; [contradiction|reflexivity]).
  apply (hd_is _ _ vzero) in ET0. rewrite (hd_map _ tl vzero vzero NTL) in ET0. change (@hd pt vzero tl) with (@hd (@vec Rnum) vzero tl) in HTL. rewrite HTL in ET0.
  set (tL := etranslated (map _ tl) _) in *.
  assert (ETL : tL = map (drawn B) tl).
  { unfold tL, etranslated. rewrite map_map. apply map_ext. intros p. rewrite EG1, <- ET0. apply pt_ext.
    - change (0 + (X pos - 0) = X pos). ring.
    - change (- X p + (Y pos - (X tip + bump) - - (X tip + bump)) = Y pos - X p). ring.
    - change (Y p + (Z pos - 2 * r - bend + Y tip - Y tip) = Z pos - 2 * r - bend + Y p). ring. }
  clearbody tL. subst tL.
  assert (DR : forall p, Z p = 0 -> edist p origin <= bend -> edist (drawn B p) B <= bend) by (intros p Z0 D; rewrite drawn_dist; assumption).
  assert (TF : 0 <= tf). { assert (E : tf = tan (ca_bumpTaper k)) by exact ETF. rewrite E. unfold tan. apply Rmult_le_pos; [apply sin_ge_0; lra|]. left. apply Rinv_0_lt_compat. apply cos_gt_0; lra. }
  split; [|split; [|reflexivity]].
  - intros p IP. apply in_app_or in IP. destruct IP as [IP|IP]; [|apply in_app_or in IP; destruct IP as [IP|IP]].
    + apply in_rev in IP. apply in_map_iff in IP. destruct IP as (p0 & <- & IP). split; [reflexivity|]. unfold tl in IP. apply in_app_or in IP. destruct IP as [IP|[<-|[]]].
      * left. destruct (AT p0 IP) as [Z0 D]. apply DR; assumption.
      * right. split; [change (Y pos <= Y pos - 0); lra|]. change (Z pos - 2 * r - bend + (Y te - X te * tf) <= Z pos - 2 * r). assert (0 <= X te * tf) by (apply Rmult_le_pos; assumption). lra.
    + apply in_rev in IP. apply in_map_iff in IP. destruct IP as (p0 & <- & IP). split; [reflexivity|]. left. destruct (AL p0 IP) as [Z0 D]. apply DR; assumption.
    + destruct (made_by _ _ _ _ EENDS IP) as (a & IA & EA). destruct (ARCS a IA) as (_ & _ & Q1 & Q2 & Q3). apply (end_is _ _ vzero) in EA. change (@last pt a vzero) with (@last (@vec Rnum) a vzero) in Q1, Q2, Q3. rewrite EA in Q1, Q2, Q3. split; [exact Q1|right; split; assumption].
  - intros p IP. destruct (made_by _ _ _ _ ESPT IP) as (a & IA & EA). apply in_rev in IA. destruct (ARCS a IA) as (_ & (Q1 & Q2 & Q3) & _). apply (hd_is _ _ vzero) in EA. change (@hd pt vzero a) with (@hd (@vec Rnum) vzero a) in Q1, Q2, Q3. rewrite EA in Q1, Q2, Q3. split; [exact Q1|split; assumption].
Qed.
End Cable.

Section Hump.
Variable q : @quality Rnum.
Variable taper : option R.
Variable pmod : R -> R -> R.
Variable pasin : R -> res R.
Variable c : @bracket_cfg Rnum.
Variable k : @cable_cfg Rnum.
Let t : R := br_taperAngle c.
Let bend : R := ca_minBendRadius k.
Hypothesis HT : 0 <= t < PI / 2.
Hypothesis HB : eps <= bend.
Hypothesis HZ : eps <= ca_zipHeight k / 2.
Hypothesis HZW : ca_zipHeight k <= ca_zipWidth k.
Hypothesis HA : 0 < maxChordAngle q.
Hypothesis HH : 0 < maxChordHeight q.

(* what the sketch of a corner provides *)
Definition sketch_ok (s : @cornerSketch Rnum) (a b : pt) : Prop :=
  X (csLBG s) = 0 /\
  flat_line (csApexLine s) /\ flat_line (csTaperLine s) /\ flat_line (csRoofLine s) /\
  ldir (csApexLine s) = P 0 1 0 /\ Z (lpos (csApexLine s)) = Z (csLBG s) /\
  csTaperDir s = P 0 (- sin t) (cos t) /\ csTaperOrtho s = P 0 (- cos t) (- sin t) /\ ldir (csTaperLine s) = P 0 (- sin t) (cos t) /\
  depth (- cos t) (- sin t) (lpos (csTaperLine s)) (csLFT s) = 0 /\
  (forall p, on_line (csRoofLine s) p -> left_of a b p = 0).
Lemma sketch_form (a b d : pt) (extra inset : R) s : X a = 0 -> X b = 0 -> X d = 0 -> cornerLines q pmod c a b d extra inset = Ok s -> sketch_ok s a b.
Proof.
  intros Xa Xb Xd EK. pose proof PI_RGT_0 as PP.
  assert (C0 : 0 < cos t) by (apply cos_gt_0; lra). pose proof (sin2_cos2 t) as SC. unfold Rsqr in SC. destruct (unit_yz t) as (U1 & U2 & U3 & U4).
  unfold cornerLines in EK. cbv zeta in EK. apply bind_ok in EK. destruct EK as (u & EU & H).
  pose proof (vnorm_unit _ _ EU) as UU. assert (Xu : X u = 0) by (apply (norm_flat _ _ EU), flat_sub; assumption). apply vnorm_ok in EU. destruct EU as [NAB EU].
  set (roofOff := nadd (nadd (pmax (boreRadius c) (@hexTangentDist Rnum pmod _ _)) (br_baseMargin c)) (extra : @num Rnum)) in H. set (wallOff := nadd (nadd (pmax (boreRadius c) (BracketModel.nutRadius c)) (br_wallMargin c)) (extra : @num Rnum)) in H.
  set (apexOff := nadd (pmax (boreRadius c) (ndiv (br_nutAcross c) (nZ 2))) (br_apexMargin c)) in H. set (taperOff := nadd (nadd (pmax (boreRadius c) (@hexTangentDist Rnum pmod _ _)) (br_taperMargin c)) (inset : @num Rnum)) in H.
  apply bind_ok in H. destruct H as (l1 & L1 & H). apply bind_ok in H. destruct H as (l2 & L2 & H). apply bind_ok in H. destruct H as (ce & E0 & H).
  apply bind_ok in H. destruct H as (l3 & L3 & H). apply bind_ok in H. destruct H as (l4 & L4 & H). apply bind_ok in H. destruct H as (l5 & L5 & H). apply bind_ok in H. destruct H as (l6 & L6 & H).
  apply bind_ok in H. destruct H as (LBG & E1 & H). apply bind_ok in H. destruct H as (LFG & E2 & H). apply bind_ok in H. destruct H as (LFT & E3 & H). apply bind_ok in H. destruct H as (arc & EA & H). apply Ok_inj in H.
  apply line_unit in L1; [|exact U4]. apply line_unit in L2; [|exact UU]. apply line_unit in L3; [|exact U4]. apply line_unit in L4; [|exact UU]. apply line_unit in L5; [|exact U3]. apply line_unit in L6; [|exact U2]. subst l1 l2 l3 l4 l5 l6 s.
  assert (FU : forall p : pt, flat p -> flat_line (mkLine p u)) by (intros p Q; split; [exact UU|split; [exact Q|exact Xu]]).
  assert (FW : forall p : pt, flat p -> flat_line (mkLine p (V (nZ 0) (nZ 0) (nZ 1)))) by (intros p Q; split; [exact U4|split; [exact Q|reflexivity]]).
  assert (FH : forall p : pt, flat p -> flat_line (mkLine p (V (nZ 0) (nZ 1) (nZ 0)))) by (intros p Q; split; [exact U3|split; [exact Q|reflexivity]]).
  assert (FT : forall p : pt, flat p -> flat_line (mkLine p (V (nZ 0) (nopp (nsin (br_taperAngle c))) (ncos (br_taperAngle c))))) by (intros p Q; split; [exact U2|split; [exact Q|reflexivity]]).
  assert (Xc : flat ce) by (apply (intersect_flat _ _ _ E0); [apply FU, flat_sub; [exact Xa|apply flat_scale; reflexivity]|apply FW, flat_sub; [exact Xd|apply flat_scale; reflexivity]]).
  assert (FA : flat_line (mkLine (vsub ce (V (nZ 0) (nZ 0) apexOff)) (V (nZ 0) (nZ 1) (nZ 0)))) by (apply FH, flat_sub; [exact Xc|reflexivity]).
  assert (FTP : flat_line (mkLine (vadd ce (vscale (V (nZ 0) (nopp (ncos (br_taperAngle c))) (nopp (nsin (br_taperAngle c)))) taperOff)) (V (nZ 0) (nopp (nsin (br_taperAngle c))) (ncos (br_taperAngle c))))) by (apply FT, flat_add; [exact Xc|apply flat_scale; reflexivity]).
  apply crossing in E1; [|apply FW; exact Xd|exact FA]. apply crossing in E3; [|exact FTP|apply FU; exact Xa].
  destruct E1 as (X1 & W1 & A1). destruct E3 as (_ & T3 & R3). unfold sketch_ok. cbn [csLBG csApexLine csTaperLine csRoofLine csTaperDir csTaperOrtho csLFT lpos ldir].
  split; [exact X1|]. split; [exact FA|]. split; [exact FTP|]. split; [apply FU; exact Xa|]. split; [reflexivity|]. split.
  { change ((Y LBG - (Y ce - 0)) * 0 = (Z LBG - (Z ce - apexOff)) * 1) in A1. change (Z ce - apexOff = Z LBG). lra. }
  split; [reflexivity|]. split; [reflexivity|]. split; [reflexivity|]. split.
  { change ((Y LFT - (Y ce + - cos t * taperOff)) * cos t = (Z LFT - (Z ce + - sin t * taperOff)) * - sin t) in T3. unfold depth.
    match goal with |- (Y ?v - _) * _ + _ = 0 => change (Y v) with (Y ce + - cos t * taperOff); change (Z v) with (Z ce + - sin t * taperOff) end. lra. }
  intros p OP. apply flat_on in OP; [|apply FU; exact Xa]. destruct OP as [_ OP]. cbn [lpos ldir] in OP. unfold left_of.
  assert (EL : sqrt ((Y b - Y a) * (Y b - Y a) + (Z b - Z a) * (Z b - Z a)) = len (vsub b a)).
  { unfold len, inner. f_equal. change (X (vsub b a)) with (X b - X a). change (Y (vsub b a)) with (Y b - Y a). change (Z (vsub b a)) with (Z b - Z a). rewrite Xa, Xb. ring. }
  rewrite EL. pose proof (len_pos _ NAB) as LP. set (l := len (vsub b a)) in *. assert (EY : Y b - Y a = l * Y u). { rewrite EU. change (Y (scaled (/ l) (vsub b a))) with (/ l * (Y b - Y a)). clearbody l. field. lra. }
  assert (EZ : Z b - Z a = l * Z u). { rewrite EU. change (Z (scaled (/ l) (vsub b a))) with (/ l * (Z b - Z a)). clearbody l. field. lra. }
  rewrite EY, EZ. replace (l * Y u * (Z p - Z a) - l * Z u * (Y p - Y a)) with (l * (Y u * (Z p - Z a) - Z u * (Y p - Y a))) by ring. replace (Y u * (Z p - Z a) - Z u * (Y p - Y a)) with 0 by lra. unfold Rdiv. ring.
Qed.

Lemma translated_is l (v : pt) m : wf_line l -> ltranslated l v = Ok m -> m = mkLine (vadd (lpos l) v) (ldir l).
Proof. intros W H. unfold ltranslated in H. apply line_unit in H; [exact H|exact W]. Qed.
Lemma mag_dist (a b : pt) : vmag (vsub a b) = edist a b.
Proof.
  destruct a as [a1 a2 a3], b as [b1 b2 b3]. rewrite vmag_len. unfold len, inner, edist, sqdist, vsub, X, Y, Z, Rsqr. cbn. rn. f_equal; ring.
Qed.
Lemma zip_form s (a b : pt) z : sketch_ok s a b -> ziptie q pasin c k s = Ok z ->
  exists H C : pt, let F := P 0 (Y H - bend * cos t) (Z H - bend * sin t) in let slot := br_taperMargin c + ca_zipHeight k in
    X H = 0 /\ Z H = Z (csLBG s) + bend - ca_humpHeight k /\ 2 * bend + ca_diameter k <= edist H (P 0 (Y (csLBG s)) (Z (csLBG s) - ca_diameter k - bend)) /\
    depth (- cos t) (- sin t) F (csLFT s) = slot /\
    (forall p, In p (zArchL z) -> X p = 0 /\ (edist p H = bend \/ Z p = Z (csLBG s) \/ (left_of a b p = 0 /\ depth (- cos t) (- sin t) F p = 0))) /\
    X C = 0 /\ depth (- cos t) (- sin t) F C = slot - ca_zipHeight k / 2 /\
    (forall p, In p (zHole z) -> exists u v : R, p = P 0 (Y C - u * sin t - v * cos t) (Z C + u * cos t - v * sin t) /\ Rabs u <= ca_zipWidth k / 2 /\ Rabs v <= ca_zipHeight k / 2) /\
    (forall u v : R, Rabs u = (ca_zipWidth k - ca_zipHeight k) / 2 -> Rabs v = ca_zipHeight k / 2 -> In (P 0 (Y C - u * sin t - v * cos t) (Z C + u * cos t - v * sin t)) (zHole z)).
Proof.
  intros (X0 & FA & FT & FR & DA & ZA & ETD & ETO & DT & LFT0 & LO) H. pose proof PI_RGT_0 as PP. pose proof eps_pos as EP.
  assert (C0 : 0 < cos t) by (apply cos_gt_0; lra). pose proof (sin2_cos2 t) as SC. unfold Rsqr in SC. destruct (unit_yz t) as (U1 & U2 & U3 & U4).
  unfold ziptie in H. cbv zeta in H. apply bind_ok in H. destruct H as (lF & ELF & H). apply bind_ok in H. destruct H as (lT & ELT & H). apply bind_ok in H. destruct H as (Hc & EHC & H).
  pose proof (translated_is _ _ _ (proj1 FT) ELF) as ELF'. pose proof (translated_is _ _ _ (proj1 FA) ELT) as ELT'.
  assert (FF : flat_line lF) by (apply (translated_flat _ _ _ ELF FT); rewrite ETO; apply flat_scale; reflexivity). assert (FTT : flat_line lT) by (apply (translated_flat _ _ _ ELT FA); reflexivity).
  apply crossing in EHC; [|exact FF|exact FTT]. destruct EHC as (XH & HF & HTT). rewrite ELF' in HF. rewrite ELT' in HTT. cbn [lpos ldir] in HF, HTT. rewrite DT, ETO in HF. rewrite DA in HTT.
  set (tp := lpos (csTaperLine s)) in *. set (ap := lpos (csApexLine s)) in *. set (m := br_taperMargin c) in *. set (zh := ca_zipHeight k) in *.
  change ((Y Hc - (Y tp + - cos t * (zh + m - bend))) * cos t = (Z Hc - (Z tp + - sin t * (zh + m - bend))) * - sin t) in HF.
  change ((Y Hc - (Y ap + 0)) * 0 = (Z Hc - (Z ap + (bend - ca_humpHeight k))) * 1) in HTT.
  assert (ZH : Z Hc = Z (csLBG s) + bend - ca_humpHeight k) by lra.
  assert (HD : (Y Hc - Y tp) * cos t + (Z Hc - Z tp) * sin t = - (zh + m - bend)). { transitivity (- (zh + m - bend) * (sin t * sin t + cos t * cos t)); [lra|rewrite SC; ring]. }
  clear HF HTT ELF' ELT' ELF ELT FF FTT lF lT.
  destruct (nltb _ (ca_diameter k)) eqn:CD in H; [discriminate|]. rewrite mag_dist in CD.
  set (B := vsub (csLBG s) _) in CD. assert (EB : B = P 0 (Y (csLBG s)) (Z (csLBG s) - ca_diameter k - bend)).
  { unfold B. apply pt_ext; [change (X (csLBG s) - 0 = 0); rewrite X0; ring|change (Y (csLBG s) - 0 = Y (csLBG s)); ring|change (Z (csLBG s) - (ca_diameter k + bend) = Z (csLBG s) - ca_diameter k - bend); ring]. }
  clearbody B. subst B. change (Rltb (edist Hc (P 0 (Y (csLBG s)) (Z (csLBG s) - ca_diameter k - bend)) - 2 * bend) (ca_diameter k) = false) in CD. apply Rltb_false in CD.
  apply bind_ok in H. destruct H as (rr & _ & H). apply bind_ok in H. destruct H as (mht & _ & H). apply bind_ok in H. destruct H as (ha & EHA & H). set (span := nsub _ _) in EHA.
  set (harc := map (fun p : vec => vadd (V (nZ 0) (nopp (vx p)) (nopp (vy p))) Hc) ha) in H.
  apply bind_ok in H. destruct H as (h0 & EH0 & H). apply bind_ok in H. destruct H as (h1 & EH1 & H). apply bind_ok in H. destruct H as (hlF & EHF & H). apply bind_ok in H. destruct H as (hlB & EHB & H). apply bind_ok in H. destruct H as (hlG & EHG & H).
  apply bind_ok in H. destruct H as (LFT & E1 & H). apply bind_ok in H. destruct H as (LBT & E2 & H). apply bind_ok in H. destruct H as (LFG & E3 & H). apply bind_ok in H. destruct H as (za & EZA & H). apply bind_ok in H. destruct H as (z0 & _ & H). apply bind_ok in H. destruct H as (al & _ & H).
  destruct (arc_shape q bend t span vzero ha HB EHA) as (n & kk & EHL & _ & _ & _).
  assert (HARC : forall p, In p harc -> X p = 0 /\ edist p Hc = bend).
  { intros p IP. unfold harc in IP. apply in_map_iff in IP. destruct IP as (p0 & <- & IP). rewrite EHL in IP. apply in_map_iff in IP. destruct IP as (i & <- & _). split; [change (0 + X Hc = 0); rewrite XH; ring|].
    apply edist_sq; [lra|]. set (g := t + _). clearbody g. pose proof (sin2_cos2 g) as S2. unfold Rsqr in S2.
    match goal with |- ?l = _ => change ((0 + X Hc - X Hc) * (0 + X Hc - X Hc) + (- (0 + bend * cos g) + Y Hc - Y Hc) * (- (0 + bend * cos g) + Y Hc - Y Hc) + (- (0 + bend * sin g) + Z Hc - Z Hc) * (- (0 + bend * sin g) + Z Hc - Z Hc) = bend * bend) end.
    transitivity (bend * bend * (sin g * sin g + cos g * cos g)); [ring|rewrite S2; ring]. }
  set (F := P 0 (Y Hc - bend * cos t) (Z Hc - bend * sin t)).
  assert (EF : h0 = F).
  { apply (hd_is _ _ vzero) in EH0. unfold harc in EH0. rewrite EHL in EH0. destruct (Z.to_nat (n + kk)) as [|w] eqn:EW; [exfalso; unfold harc in EH1; rewrite EHL in EH1; discriminate|]. cbn [seq map hd] in EH0. rewrite <- EH0.
    unfold F. replace (t + INR 0 * (turn_limited span / IZR n)) with t by (cbn [INR]; ring). apply pt_ext.
    - change (0 + X Hc = 0). rewrite XH. ring.
    - change (- (0 + bend * cos t) + Y Hc = Y Hc - bend * cos t). ring.
    - change (- (0 + bend * sin t) + Z Hc = Z Hc - bend * sin t). ring. }
  subst h0. assert (Xh1 : X h1 = 0) by (apply HARC; apply last_is in EH1; destruct EH1 as (? & ->); apply in_or_app; right; left; reflexivity).
  rewrite DT in EHF, EHB. apply line_unit in EHF; [|exact U2]. subst hlF. assert (FLF : flat_line (mkLine F (P 0 (- sin t) (cos t)))) by (split; [exact U2|split; reflexivity]).
  assert (FLB : flat_line hlB) by (apply (newLine_flat _ _ _ EHB); [exact Xh1|reflexivity]).
  assert (FLG : flat_line hlG) by (apply (newLine_flat _ _ _ EHG); [apply flat_sub; [exact (proj1 (proj2 FA))|reflexivity]|reflexivity]).
  destruct (flat_meet _ _ _ FLF FR E1) as [O1 O1']. destruct (flat_meet _ _ _ FLB FA E2) as [_ O2]. destruct (flat_meet _ _ _ FLG FLF E3) as [_ O3].
  apply flat_on in O2; [|exact FA]. destruct O2 as [XB O2]. rewrite DA in O2. change ((Y LBT - Y ap) * 0 = (Z LBT - Z ap) * 1) in O2.
  apply flat_on in O1; [|exact FLF]. destruct O1 as [X1 O1]. cbn [lpos ldir] in O1. change ((Y LFT - Y F) * cos t = (Z LFT - Z F) * - sin t) in O1.
  apply flat_on in O3; [|exact FLF]. destruct O3 as [X3 O3]. cbn [lpos ldir] in O3. change ((Y LFG - Y F) * cos t = (Z LFG - Z F) * - sin t) in O3.
  set (zc := vsub (vadd (vscale LFT (nQ 4 10)) (vscale LFG (nQ 6 10))) _) in H. apply Ok_inj in H.
  assert (DZC : depth (- cos t) (- sin t) F zc = m + zh / 2 /\ X zc = 0).
  { unfold zc. rewrite ETO. split; [|change (X LFT * (4 / 10) + X LFG * (6 / 10) - 0 * (zh / 2 + m) = 0); rewrite X1, X3; ring]. unfold depth.
    match goal with |- (_ - Y ?v) * _ + _ = _ => change (Y v) with (Y LFT * (4 / 10) + Y LFG * (6 / 10) - - cos t * (zh / 2 + m)); change (Z v) with (Z LFT * (4 / 10) + Z LFG * (6 / 10) - - sin t * (zh / 2 + m)) end.
    transitivity ((m + zh / 2) * (sin t * sin t + cos t * cos t)); [lra|rewrite SC; ring]. }
  destruct DZC as [DZC XZC]. clearbody zc.
  set (holes := map (fun p : vec => vadd (V (nZ 0) (vx p) (vy p)) zc) _) in H.
  assert (HOLES : forall p, In p holes -> exists u v : R, p = P 0 (Y zc - u * sin t - v * cos t) (Z zc + u * cos t - v * sin t) /\ Rabs u <= ca_zipWidth k / 2 /\ Rabs v <= zh / 2).
  { assert (PT : forall p0, In p0 za -> exists x y : R, p0 = P x y 0 /\ Rabs x <= zh / 2 /\ Rabs y <= ca_zipWidth k / 2).
    { intros p0 IP. change (@arc2D Rnum q (zh / 2) 0 (- PI) (P 0 (zh / 2 - ca_zipWidth k / 2) 0) = Ok za) in EZA.
      destruct (arc_between q (zh / 2) 0 (- PI) (P 0 (zh / 2 - ca_zipWidth k / 2) 0) za (or_intror HZ) ltac:(rewrite Rabs_left; lra) EZA eq_refl p0 IP) as (g & BG & ->).
      assert (G : - PI <= g <= 0) by (destruct BG as [BG|BG]; lra). assert (S0 : sin g <= 0) by (replace g with (- - g) by ring; rewrite sin_neg; assert (0 <= sin (- g)) by (apply sin_ge_0; lra); lra).
      pose proof (SIN_bound g) as [S1 _]. pose proof (COS_bound g) as [CB1 CB2]. exists (0 + zh / 2 * cos g), ((zh / 2 - ca_zipWidth k / 2) + zh / 2 * sin g). split; [reflexivity|].
      assert (0 < zh / 2) by lra. assert (HZW' : zh <= ca_zipWidth k) by exact HZW.
      assert (zh / 2 * cos g <= zh / 2 * 1) by (apply Rmult_le_compat_l; lra). assert (zh / 2 * (-1) <= zh / 2 * cos g) by (apply Rmult_le_compat_l; lra).
      assert (zh / 2 * (-1) <= zh / 2 * sin g) by (apply Rmult_le_compat_l; lra). assert (zh / 2 * sin g <= zh / 2 * 0) by (apply Rmult_le_compat_l; lra). split; apply Rabs_le; lra. }
    intros p IP. unfold holes in IP. apply in_map_iff in IP. destruct IP as (p1 & <- & IP). apply in_app_or in IP. destruct IP as [IP|IP].
    - unfold etransformed in IP. apply in_map_iff in IP. destruct IP as (p0 & <- & IP). destruct (PT p0 IP) as (x & y & -> & BX & BY). rewrite turned_pt. exists y, (- x). split; [|split; [exact BY|rewrite Rabs_Ropp; exact BX]]. apply pt_ext.
      + change (0 + X zc = 0). rewrite XZC. ring.
      + change (x * cos t - y * sin t + Y zc = Y zc - y * sin t - - x * cos t). ring.
      + change (x * sin t + y * cos t + Z zc = Z zc + y * cos t - - x * sin t). ring.
    - unfold emirY, emirX, etransformed in IP. rewrite !map_map in IP. apply in_map_iff in IP. destruct IP as (p0 & <- & IP). destruct (PT p0 IP) as (x & y & -> & BX & BY). rewrite turned_pt. exists (- y), x. split; [|split; [rewrite Rabs_Ropp; exact BY|exact BX]]. apply pt_ext.
      + change (0 + X zc = 0). rewrite XZC. ring.
      + change (- (x * cos t - y * sin t) + Y zc = Y zc - - y * sin t - x * cos t). ring.
      + change (- (x * sin t + y * cos t) + Z zc = Z zc + - y * cos t - x * sin t). ring. }
  assert (CORN : forall u v : R, Rabs u = (ca_zipWidth k - zh) / 2 -> Rabs v = zh / 2 -> In (P 0 (Y zc - u * sin t - v * cos t) (Z zc + u * cos t - v * sin t)) holes).
  { change (@arc2D Rnum q (zh / 2) 0 (- PI) (P 0 (zh / 2 - ca_zipWidth k / 2) 0) = Ok za) in EZA. destruct (arc_some q HA HH (zh / 2) 0 (- PI) (P 0 (zh / 2 - ca_zipWidth k / 2) 0) za (or_intror HZ) ltac:(lra) EZA) as [NZA _].
    destruct (arc_ends q (zh / 2) 0 (- PI) (P 0 (zh / 2 - ca_zipWidth k / 2) 0) za (or_intror HZ) ltac:(rewrite Rabs_left; lra) EZA eq_refl NZA) as [A1 A2].
    rewrite cos_0, sin_0 in A1. replace (0 + - PI) with (- PI) in A2 by ring. rewrite cos_neg, sin_neg, cos_PI, sin_PI in A2.
    assert (I1 : In (hd vzero za) za) by (destruct za; [contradiction|left; reflexivity]). assert (I2 : In (last za vzero) za) by (destruct (exists_last NZA) as (r1 & r2 & ER); rewrite ER, last_last; apply in_or_app; right; left; reflexivity).
    set (d := zh / 2 - ca_zipWidth k / 2) in *.
    assert (PT : forall x : R, x = zh / 2 \/ x = - (zh / 2) -> In (P x d 0) za).
    { intros x [Ex|Ex].
      - replace (P x d 0) with (@hd (@vec Rnum) vzero za); [exact I1|]. rewrite A1. apply pt_ext; [change (0 + zh / 2 * 1 = x); lra|change (d + zh / 2 * 0 = d); ring|reflexivity].
      - replace (P x d 0) with (@last (@vec Rnum) za vzero); [exact I2|]. rewrite A2. apply pt_ext; [change (0 + zh / 2 * -1 = x); lra|change (d + zh / 2 * - 0 = d); ring|reflexivity]. }
    intros u v AU AV. assert (V0 : v = zh / 2 \/ v = - (zh / 2)) by (unfold Rabs in AV; destruct (Rcase_abs v); [right|left]; lra).
    assert (U0 : u = d \/ u = - d) by (unfold Rabs in AU; destruct (Rcase_abs u); [left|right]; unfold d; lra). unfold holes. apply in_map_iff. destruct U0 as [-> | ->].
    - exists (transformed (P (- v) d 0) (mrotZ mid (t : @num Rnum) None)). split; [|apply in_or_app; left; unfold etransformed; apply in_map_iff; exists (P (- v) d 0); split; [reflexivity|apply PT; destruct V0 as [-> | ->]; [right; reflexivity|left; ring]]].
      rewrite turned_pt. apply pt_ext.
      + change (0 + X zc = 0). rewrite XZC. ring.
      + change (- v * cos t - d * sin t + Y zc = Y zc - d * sin t - v * cos t). ring.
      + change (- v * sin t + d * cos t + Z zc = Z zc + d * cos t - v * sin t). ring.
    - exists (vmirY (vmirX (transformed (P v d 0) (mrotZ mid (t : @num Rnum) None)))). split; [|apply in_or_app; right; unfold emirY, emirX, etransformed; rewrite !map_map; apply in_map_iff; exists (P v d 0); split; [reflexivity|apply PT; exact V0]].
      rewrite turned_pt. apply pt_ext.
      + change (0 + X zc = 0). rewrite XZC. ring.
      + change (- (v * cos t - d * sin t) + Y zc = Y zc - - d * sin t - v * cos t). ring.
      + change (- (v * sin t + d * cos t) + Z zc = Z zc + - d * cos t - v * sin t). ring. }
  clearbody holes. rewrite ETD in H.
  assert (ARCH : forall p, In p (zArchL z) -> X p = 0 /\ (edist p Hc = bend \/ Z p = Z (csLBG s) \/ (left_of a b p = 0 /\ depth (- cos t) (- sin t) F p = 0))).
  { rewrite <- H. cbn [zArchL]. intros p IP. apply collapsed_in in IP. destruct IP as [<-|IP].
    - split; [exact X1|]. right. right. split; [apply LO; exact O1'|unfold depth; lra].
    - apply in_app_or in IP. destruct IP as [IP|[<-|[]]].
      + destruct (HARC p IP) as [Q1 Q2]. split; [exact Q1|left; exact Q2].
      + split; [exact XB|]. right. left. lra. }
  assert (DF : depth (- cos t) (- sin t) F (csLFT s) = m + zh).
  { unfold depth in LFT0 |- *. change (Y F) with (Y Hc - bend * cos t). change (Z F) with (Z Hc - bend * sin t). transitivity (m + zh - bend + bend * (sin t * sin t + cos t * cos t)); [lra|rewrite SC; ring]. }
  set (mg := vmag (vsub z0 al)) in H. assert (ZHO : zHole z = holes \/ zHole z = etranslated holes (vscale (P 0 (- sin t) (cos t)) mg)).
  { rewrite <- H. cbn [zHole]. destruct (nleb (vz z0) (vz al)); [right|left]; reflexivity. }
  clearbody mg. clear H. set (e := fun w : R => P 0 (Y zc - w * sin t) (Z zc + w * cos t)).
  assert (ALL : exists w : R, (forall p, In p (zHole z) -> exists u v : R, p = P 0 (Y (e w) - u * sin t - v * cos t) (Z (e w) + u * cos t - v * sin t) /\ Rabs u <= ca_zipWidth k / 2 /\ Rabs v <= zh / 2) /\
    (forall u v : R, Rabs u = (ca_zipWidth k - zh) / 2 -> Rabs v = zh / 2 -> In (P 0 (Y (e w) - u * sin t - v * cos t) (Z (e w) + u * cos t - v * sin t)) (zHole z))).
  { destruct ZHO as [E|E]; rewrite E.
    - exists 0. split; [|intros u v AU AV; specialize (CORN u v AU AV); replace (Y (e 0)) with (Y zc) by (change (Y zc = Y zc - 0 * sin t); ring); replace (Z (e 0)) with (Z zc) by (change (Z zc = Z zc + 0 * cos t); ring); exact CORN].
      intros p IP. destruct (HOLES p IP) as (u & v & -> & B1 & B2). exists u, v. split; [|split; assumption]. apply pt_ext; [reflexivity| |].
      + change (Y zc - u * sin t - v * cos t = Y zc - 0 * sin t - u * sin t - v * cos t). ring.
      + change (Z zc + u * cos t - v * sin t = Z zc + 0 * cos t + u * cos t - v * sin t). ring.
    - exists mg. split; [|intros u v AU AV; specialize (CORN u v AU AV); unfold etranslated; apply in_map_iff; eexists; split; [|exact CORN]; apply pt_ext;
        [change (0 + 0 * mg = 0); ring|change (Y zc - u * sin t - v * cos t + - sin t * mg = Y zc - mg * sin t - u * sin t - v * cos t); ring|change (Z zc + u * cos t - v * sin t + cos t * mg = Z zc + mg * cos t + u * cos t - v * sin t); ring]].
      intros p IP. unfold etranslated in IP. apply in_map_iff in IP. destruct IP as (p0 & <- & IP). destruct (HOLES p0 IP) as (u & v & -> & B1 & B2). exists u, v. split; [|split; assumption]. apply pt_ext.
      + change (0 + 0 * mg = 0). ring.
      + change (Y zc - u * sin t - v * cos t + - sin t * mg = Y zc - mg * sin t - u * sin t - v * cos t). ring.
      + change (Z zc + u * cos t - v * sin t + cos t * mg = Z zc + mg * cos t + u * cos t - v * sin t). ring. }
  destruct ALL as (w & ALL). exists Hc, (e w). cbv zeta. fold F. split; [exact XH|]. split; [exact ZH|]. split; [lra|]. split; [exact DF|]. split; [exact ARCH|]. split; [reflexivity|]. split; [|exact ALL].
  unfold depth in DZC |- *. change (Y (e w)) with (Y zc - w * sin t). change (Z (e w)) with (Z zc + w * cos t). lra.
Qed.
End Hump.
