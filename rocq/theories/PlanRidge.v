(** The left end of the thumb cluster, the front of the ridge, and the hitch of the palm rest. *)
From Coq Require Import Reals Lra Psatz List Bool ZArith Lia.
From Verif Require Import Num GeoModel GeoSpec GeoMat GeoRigid GeoPlane GeoFig GeoIso EdgeModel ArcModel ArcSpec ArcProof
  KeyModel LayoutModel LayoutSpec LayoutProof BossModel PlanModel HullSpec PlanSpec WallProof BossFit BossFit2 BossKeys PlanMove PlanTent PlanWalls PlanFinal PlanSpec2 PlanAngle.
Import ListNotations.
Open Scope R_scope.

Lemma scaled_origin (d : pt) : scaled (/ len d) d <> origin -> d <> origin.
Proof. intros H E. apply H. rewrite E. apply pt_ext; unfold scaled, origin, P, X, Y, Z; cbn [vx vy vz]; rn; ring. Qed.
Lemma ground_new (pos d : pt) l : Z pos = 0 -> Z d = 0 -> newLine pos d = Ok l -> ground_line l /\ lpos l = pos /\ exists s, 0 < s /\ d = scaled s (ldir l).
Proof.
  intros Zp Zd H. destruct (newLine_ok _ _ _ H) as (U & Lp & Ld & N). pose proof (len_pos d N) as L. split; [|split; [exact Lp|]].
  - split; [exact U|]. split; [rewrite Ld; unfold scaled, P, Z in *; cbn [vz]; rn; rewrite Zd; ring|rewrite Lp; exact Zp].
  - exists (len d). split; [exact L|]. rewrite Ld. destruct d as [x y z]. assert (E : forall a b : R, b <> 0 -> a = b * (/ b * a)) by (intros; field; assumption).
    set (n := len _) in *. assert (n <> 0) by lra. apply pt_ext; unfold scaled, P, X, Y, Z; cbn [vx vy vz]; rn; apply E; assumption.
Qed.

(** ** sweeping a line about a point *)
Lemma cross_chain (w d d' q : pt) : 0 < X w * X d + Y w * Y d -> 0 < X w * X d' + Y w * Y d' -> 0 < X w * X q + Y w * Y q ->
  X q * Y d - Y q * X d <= 0 -> 0 < X d' * Y d - Y d' * X d -> X q * Y d' - Y q * X d' <= 0.
Proof.
  intros D D' Q H1 H2.
  assert (E : (X w * X d + Y w * Y d) * (X q * Y d' - Y q * X d') = (X w * X q + Y w * Y q) * - (X d' * Y d - Y d' * X d) + (X w * X d' + Y w * Y d') * (X q * Y d - Y q * X d)) by ring.
  set (A := X w * X d + Y w * Y d) in *. set (B := X q * Y d' - Y q * X d') in *.
  destruct (Rle_lt_dec B 0) as [L|L]; [exact L|exfalso].
  pose proof (Rmult_lt_0_compat _ _ D L) as P1. pose proof (Rmult_lt_0_compat _ _ Q H2) as P2.
  assert (P3 : 0 <= (X w * X d' + Y w * Y d') * - (X q * Y d - Y q * X d)) by (apply Rmult_le_pos; lra). lra.
Qed.
Lemma sweep_ok (pts : list pt) : forall l l', ground_line l -> @sweep Rnum l pts = Ok l' ->
  ground_line l' /\ lpos l' = lpos l /\ (l' = l \/ exists p s, In p pts /\ 0 < s /\ minus (vxy p) (lpos l) = scaled s (ldir l')) /\
  forall w, 0 < X w * X (ldir l) + Y w * Y (ldir l) -> (forall p, In p pts -> 0 < ahead w (lpos l) p) ->
    0 < X w * X (ldir l') + Y w * Y (ldir l') /\
    (forall q, 0 < ahead w (lpos l) q -> beyond l q <= 0 -> beyond l' q <= 0) /\ (forall p, In p pts -> beyond l' p <= 0).
Proof.
  induction pts as [|p pts IH]; intros l l' G H; cbn [sweep] in H.
  { apply Ok_inj in H. subst l'. split; [exact G|]. split; [reflexivity|]. split; [left; reflexivity|]. intros w Hw _. split; [exact Hw|]. split; [intros; assumption|intros p []]. }
  rewrite ldistance2D_ground in H by exact G. cbn [bind] in H. match type of H with (if ?b then _ else _) = _ => destruct b eqn:C end.
  - apply Rltb_true in C. change (0 < beyond l p) in C. unfold beyond in C. apply bind_ok in H. destruct H as (m & Em & H).
    assert (Zd : Z (vsub (vxy p) (lpos l)) = 0) by (destruct G as (_ & _ & Zp); unfold vsub, vxy, Z in *; cbn [vz]; rn; rewrite Zp; lra).
    destruct (ground_new _ _ _ (proj2 (proj2 G)) Zd Em) as (Gm & Pm & s & Hs & Es).
    destruct (IH m l' Gm H) as (G' & P' & T & K). rewrite Pm in P', T. split; [exact G'|]. split; [exact P'|]. split.
    { right. destruct T as [->|(q & s' & Hq & Hs' & Eq)]; [exists p, s; split; [left; reflexivity|split; [exact Hs|exact Es]]|exists q, s'; split; [right; exact Hq|auto]]. }
    intros w Hw Hp. assert (Dm : X p - X (lpos l) = s * X (ldir m) /\ Y p - Y (lpos l) = s * Y (ldir m)).
    { pose proof (f_equal X Es) as Q1. pose proof (f_equal Y Es) as Q2. unfold scaled, vsub, vxy, P, X, Y in *. cbn [vx vy] in *. rn. split; assumption. }
    destruct Dm as (Dx & Dy). assert (Wm : 0 < X w * X (ldir m) + Y w * Y (ldir m)).
    { pose proof (Hp p (or_introl eq_refl)) as A. unfold ahead in A. rewrite Dx, Dy in A. replace (X w * (s * X (ldir m)) + Y w * (s * Y (ldir m))) with (s * (X w * X (ldir m) + Y w * Y (ldir m))) in A by ring.
      destruct (Rle_lt_dec (X w * X (ldir m) + Y w * Y (ldir m)) 0) as [L|L]; [|exact L]. assert (0 <= s * - (X w * X (ldir m) + Y w * Y (ldir m))) by (apply Rmult_le_pos; lra). lra. }
    assert (Hp' : forall q, In q pts -> 0 < ahead w (lpos m) q) by (intros q Hq; rewrite Pm; apply Hp; right; exact Hq).
    destruct (K w Wm Hp') as (K1 & K2 & K3). rewrite Pm in K2.
    assert (M : forall q, 0 < ahead w (lpos l) q -> beyond l q <= 0 -> beyond m q <= 0).
    { intros q Aq Bq. unfold beyond in *. rewrite Pm. unfold ahead in Aq.
      pose proof (cross_chain w (ldir l) (ldir m) (P (X q - X (lpos l)) (Y q - Y (lpos l)) 0) Hw Wm Aq Bq) as CC. apply CC.
      rewrite Dx, Dy in C. replace (s * X (ldir m) * Y (ldir l) - s * Y (ldir m) * X (ldir l)) with (s * (X (ldir m) * Y (ldir l) - Y (ldir m) * X (ldir l))) in C by ring.
      destruct (Rle_lt_dec (X (ldir m) * Y (ldir l) - Y (ldir m) * X (ldir l)) 0) as [L|L]; [|exact L].
      assert (0 <= s * - (X (ldir m) * Y (ldir l) - Y (ldir m) * X (ldir l))) by (apply Rmult_le_pos; lra). lra. }
    split; [exact K1|]. split; [intros q Aq Bq; apply K2; [exact Aq|apply M; assumption]|].
    intros q [<-|Hq]; [|apply K3, Hq]. apply K2; [apply Hp; left; reflexivity|]. unfold beyond. rewrite Pm, Dx, Dy. lra.
  - apply Rltb_false in C. change (beyond l p <= 0) in C. destruct (IH l l' G H) as (G' & P' & T & K). split; [exact G'|]. split; [exact P'|]. split.
    { destruct T as [->|(q & s & Hq & R)]; [left; reflexivity|right; exists q, s; split; [right; exact Hq|exact R]]. }
    intros w Hw Hp. destruct (K w Hw (fun q Hq => Hp q (or_intror Hq))) as (K1 & K2 & K3). split; [exact K1|]. split; [exact K2|].
    intros q [<-|Hq]; [apply K2; [apply Hp; left; reflexivity|exact C]|apply K3, Hq].
Qed.

Section Ridge.
Variable c : @plan_cfg Rnum.
Local Notation ridge_mid := (ridge_mid c).
Local Notation ridge_front := (ridge_front c).
Lemma key_back_normal k d : Built (kmatrix k) -> transformedNormal (V 0 1 0) (kmatrix k) = Ok d -> vxy d = key_back k.
Proof.
  intros B H. rewrite tnormal_lin in H. change (@V Rnum 0 1 0) with (P 0 1 0) in H.
  rewrite vnorm_of_unit in H by (unfold unit_vec; rewrite lin_inner by exact B; unfold inner, P, X, Y, Z; cbn [vx vy vz]; rn; ring). apply Ok_inj in H. subst d. reflexivity.
Qed.
Lemma minList_map (f : pt -> R) l d : @minList Rnum (map f l) = Ok d -> (exists p, In p l /\ f p = d) /\ forall p, In p l -> d <= f p.
Proof.
  intros H. destruct (minList_spec _ _ H) as (I & M). split; [|intros p Hp; apply M, in_map, Hp]. apply in_map_iff in I. destruct I as (p & E & Hp). eauto.
Qed.
Lemma thumbCorner_ok (y : @layout Rnum) w l tl : (forall k, In k (lthumb y SideBoth) -> Built (kmatrix k)) -> ground_line (fst (wF w)) -> thumbCorner y w = Ok (l, tl) ->
  thumb_edge y l /\ wf_plane tl /\ (exists s, 0 < s /\ plus (ldir (fst (wF w))) (P 1 0 0) = scaled s (pnormal tl)) /\
  exists q, on_line l q /\ on_line (fst (wF w)) q /\ ppos tl = q.
Proof.
  intros B GF H. unfold thumbCorner in H. cbv zeta in H.
  apply bind_ok in H. destruct H as (kl & EL & H). apply bind_ok in H. destruct H as (dl & NL & H). apply bind_ok in H. destruct H as (kr & ER & H). apply bind_ok in H. destruct H as (dr & NR & H).
  apply bind_ok in H. destruct H as (l0 & E0 & H). apply bind_ok in H. destruct H as (ds & ED & H). apply bind_ok in H. destruct H as (off & EO & H).
  apply bind_ok in H. destruct H as (l1 & E1 & H). apply bind_ok in H. destruct H as (pos & EP & H). apply bind_ok in H. destruct H as (pl & EPl & H). injection H as <- <-.
  assert (BL : Built (kmatrix kl)) by (apply B; cbn [lthumb]; apply in_app_iff; right; exact (pyidx_in _ _ _ EL)).
  assert (BR : Built (kmatrix kr)) by (apply B; cbn [lthumb]; apply in_app_iff; left; exact (pyidx_in _ _ _ ER)).
  pose proof (key_back_normal kl dl BL NL) as KL. pose proof (key_back_normal kr dr BR NR) as KR. unfold pt in *. rewrite KL, KR in E0.
  assert (Z0 : Z (vadd (key_back kl) (key_back kr)) = 0) by (unfold key_back, vadd, P, Z; cbn [vz]; rn; ring).
  destruct (ground_new vzero _ _ eq_refl Z0 E0) as (G0 & P0 & s & Hs & Es).
  rewrite (mapM_total_fun _ (beyond l0)) in ED by (intros x _; apply ldistance2D_ground, G0). apply Ok_inj in ED. subst ds.
  destruct (minList_map _ _ _ EO) as ((q & Hq & Eq) & MN).
  assert (E1' : ltranslated l0 (vscale (vopp (vortho2D (ldir l0))) off) = Ok l1) by (rewrite opp_scale; exact E1).
  destruct (move_out l0 off G0) as (l1' & Q & (D1 & G1 & B1)). unfold pt in *. rewrite E1' in Q. apply Ok_inj in Q. subst l1'.
  destruct (ground_meet _ _ _ GF G1 EP) as (M1 & M2). destruct (newPlane_ok _ _ _ EPl) as (WP & PP & PN & NZ).
  split; [|split; [exact WP|split]].
  - split; [exact G1|]. split; [exists kl, kr, s; rewrite D1; auto|]. split; [intros p Hp; rewrite B1; specialize (MN p Hp); rn; apply Rge_le, Rge_minus, Rle_ge; exact MN|exists q; split; [exact Hq|rewrite B1, Eq; apply Rminus_diag_eq; reflexivity]].
  - pose proof (len_pos _ NZ) as L. exists (len (vadd (ldir (fst (wF w))) (P 1 0 0))). split; [exact L|]. rewrite PN.
    change (@V Rnum (@nZ Rnum 1) (@nZ Rnum 0) (@nZ Rnum 0)) with (P 1 0 0). set (d := plus (ldir (fst (wF w))) (P 1 0 0)). change (vadd (ldir (fst (wF w))) (P 1 0 0)) with d in *.
    assert (E : forall a b : R, b <> 0 -> a = b * (/ b * a)) by (intros; field; assumption). assert (LN : len d <> 0) by (apply Rgt_not_eq; exact L). clear L. clearbody d. destruct d as [x0 y0 z0].
    set (n := len _) in *. apply pt_ext; unfold scaled, P, X, Y, Z; cbn [vx vy vz]; rn; apply E; exact LN.
  - exists pos. split; [exact M2|]. split; [exact M1|exact PP].
Qed.
Lemma ridge_shape (y : @layout Rnum) w l tl rI rO : ground_line l -> ridgeFront c y w l tl = Ok (rI, rO) -> exists o e,
  meets (alnumOL (pA (wPlanes w))) (alnumOF (pA (wPlanes w))) (thumbOT (pA (wPlanes w))) o /\
  meets tl (pinkyIF (wPlanes w)) (thumbIT (pA (wPlanes w))) e /\
  ridge_front (flat_map kbounds (lthumb y SideBoth)) l o e rO.
Proof.
  intros GL H. unfold ridgeFront in H. cbv zeta in H.
  apply bind_ok in H. destruct H as (o & E1 & H). apply bind_ok in H. destruct H as (e & E2 & H). apply bind_ok in H. destruct H as (? & _ & H). apply bind_ok in H. destruct H as (? & _ & H).
  apply bind_ok in H. destruct H as (s0 & E3 & H). apply bind_ok in H. destruct H as (s & E4 & H). apply bind_ok in H. destruct H as (v & E5 & H). apply bind_ok in H. destruct H as (rf & E6 & H).
  match type of H with (if ?b then _ else _) = _ => destruct b end; [discriminate|]. injection H as _ <-.
  exists o, e. split; [exact (pintersectPlanes_sound _ _ _ _ E1)|]. split; [exact (pintersectPlanes_sound _ _ _ _ E2)|].
  match type of E6 with projectZ _ (if vltb ?a v then _ else _) = _ => assert (EM : a = ridge_mid o e) end.
  { unfold ridge_mid, vadd, vsub, vscale, vxy, P. cbn [vx vy vz]. assert (Q1 : forall a b : R, a + (0 - a) * b = a * (1 - b)) by (intros; ring). assert (Q2 : forall a b d : R, a + (b - a) * d = a + (b - a) * d) by reflexivity.
    apply pt_ext; unfold X, Y, Z; cbn [vx vy vz]; rn; ring. }
  rewrite EM in E3, E6. set (m := ridge_mid o e) in *.
  assert (Z0 : Z (vsub m (vxy o)) = 0) by (unfold m, ridge_mid, vsub, vxy, P, Z; cbn [vz]; rn; ring).
  destruct (ground_new (vxy o) _ _ eq_refl Z0 E3) as (G0 & P0 & t & Ht & Et).
  assert (Dm : X m - X o = t * X (ldir s0) /\ Y m - Y o = t * Y (ldir s0)).
  { pose proof (f_equal X Et) as Q1. pose proof (f_equal Y Et) as Q2. unfold scaled, vsub, vxy, P, X, Y in *. cbn [vx vy] in *. rn. split; assumption. }
  destruct Dm as (Dx & Dy). destruct (sweep_ok _ _ _ G0 E4) as (GS & PS & T & K). rewrite P0 in PS, T, K.
  destruct (ground_meet _ _ _ GS GL E5) as (M1 & M2).
  unfold ridge_front. cbv zeta. fold m. exists s, v. split; [exact GS|]. split; [rewrite PS; reflexivity|]. split; [|split; [|split; [exact M1|split; [exact M2|]]]].
  - destruct T as [->|(p & u & Hp & Hu & Eu)]; [exists m, t; auto|]. exists p, u. split; [exact Hu|]. split; [right; exact Hp|].
    pose proof (f_equal X Eu) as Q1. pose proof (f_equal Y Eu) as Q2. unfold scaled, minus, vxy, P, X, Y in *. cbn [vx vy] in *. rn. split; assumption.
  - intros u Um Uq. assert (W0 : 0 < X u * X (ldir s0) + Y u * Y (ldir s0)).
    { unfold ahead in Um. rewrite Dx, Dy in Um. replace (X u * (t * X (ldir s0)) + Y u * (t * Y (ldir s0))) with (t * (X u * X (ldir s0) + Y u * Y (ldir s0))) in Um by ring.
      destruct (Rle_lt_dec (X u * X (ldir s0) + Y u * Y (ldir s0)) 0) as [L|L]; [|exact L]. assert (0 <= t * - (X u * X (ldir s0) + Y u * Y (ldir s0))) by (apply Rmult_le_pos; lra). lra. }
    destruct (K u W0 (fun p Hp => Uq p Hp)) as (_ & K2 & K3). split; [|exact K3]. apply K2; [exact Um|].
    unfold beyond. rewrite P0. change (X (vxy o)) with (X o). change (Y (vxy o)) with (Y o). rewrite Dx, Dy. lra.
  - destruct (projectZ_sound _ _ _ E6) as (_ & RX & RY). destruct (vltb m v) eqn:C.
    + apply vltb_lex in C. left. rewrite RX, RY. split; [reflexivity|]. split; [reflexivity|]. unfold lexlt in C. destruct C as [C|[C _]]; unfold X in *; lra.
    + right. rewrite RX, RY. split; [reflexivity|]. split; [reflexivity|]. destruct (Rle_lt_dec (X v) (X m)) as [L|L]; [exact L|exfalso].
      assert (Q : vltb m v = true) by (apply vltb_lex; left; exact L). unfold pt in *. rewrite Q in C. discriminate.
Qed.
Lemma edge_shift (y : @layout Rnum) l h : (forall k, In k (lthumb y SideBoth) -> Built (kmatrix k)) -> thumb_edge y l -> thumb_edge (mapAll (move (P 0 0 h)) y) l.
Proof.
  intros B (G & (kl & kr & s & EL & ER & Hs & Es) & I & (q & Hq & Bq)). set (v := P 0 0 h).
  assert (KB : flat_map kbounds (lthumb (mapAll (move v) y) SideBoth) = map (fun p => plus p v) (flat_map kbounds (lthumb y SideBoth))) by (rewrite thumb_all; apply kbounds_map; [apply carries_move|exact B]).
  assert (BV : forall p, beyond l (plus p v) = beyond l p) by (intros p; apply beyond_ext; unfold plus, v, P, X, Y; cbn [vx vy]; rn; ring).
  assert (BK : forall k, In k (lthumb y SideBoth) -> key_back (move v k) = key_back k).
  { intros k Hk. destruct (carries_move v k (B k Hk)) as (_ & T & _). unfold key_back. cbv zeta. rewrite !T. assert (E : forall a b d : R, a + d - (b + d) = a - b) by (intros; ring). apply pt_ext; [apply E|apply E|reflexivity]. }
  assert (IL : In kl (lthumb y SideBoth)) by (cbn [lthumb]; apply in_app_iff; right; exact (pyidx_in _ _ _ EL)).
  assert (IR : In kr (lthumb y SideBoth)) by (cbn [lthumb]; apply in_app_iff; left; exact (pyidx_in _ _ _ ER)).
  split; [exact G|]. unfold pt in *. rewrite KB. split; [|split].
  - exists (move v kl), (move v kr), s. rewrite !thumb_all, !BK by assumption. split; [apply pyidx_map, EL|]. split; [apply pyidx_map, ER|]. auto.
  - intros p Hp. apply in_map_iff in Hp. destruct Hp as (p' & <- & Hp). rewrite BV. apply I, Hp.
  - exists (plus q v). split; [apply in_map_iff; eauto|]. rewrite BV. exact Bq.
Qed.
Lemma ridge_shift (ts : list pt) l o e r h : ridge_front ts l o e r -> ridge_front (map (fun p => plus p (P 0 0 h)) ts) l (plus o (P 0 0 h)) (plus e (P 0 0 h)) (plus r (P 0 0 h)).
Proof.
  assert (XE : forall p, X (plus p (P 0 0 h)) = X p) by (intros p; unfold plus, P, X; cbn [vx]; rn; ring).
  assert (YE : forall p, Y (plus p (P 0 0 h)) = Y p) by (intros p; unfold plus, P, Y; cbn [vy]; rn; ring).
  assert (ME : ridge_mid (plus o (P 0 0 h)) (plus e (P 0 0 h)) = ridge_mid o e) by (unfold ridge_mid; rewrite XE, !YE; reflexivity).
  unfold ridge_front. cbv zeta. rewrite ME, !XE, !YE. intros (s & v & G & Ps & (k & t & Ht & Hk & KX & KY) & A & S1 & S2 & S3).
  exists s, v. split; [exact G|]. split; [exact Ps|]. split; [|split; [|auto]].
  - destruct Hk as [->|Hk]; [exists (ridge_mid o e), t; auto|]. exists (plus k (P 0 0 h)), t. rewrite XE, YE. split; [exact Ht|]. split; [right; apply in_map_iff; eauto|auto].
  - intros w Hw Hq. assert (AE : forall p q, ahead w p q = X w * (X q - X p) + Y w * (Y q - Y p)) by reflexivity.
    destruct (A w) as (A1 & A2); [rewrite AE in *; rewrite XE, YE in Hw; exact Hw|intros q I; specialize (Hq _ (in_map (fun p => plus p (P 0 0 h)) _ _ I)); rewrite AE in *; rewrite !XE, !YE in Hq; exact Hq|].
    split; [exact A1|]. intros q I. apply in_map_iff in I. destruct I as (q' & <- & I). rewrite (beyond_ext s _ q') by (apply XE || apply YE). apply A2, I.
Qed.
Theorem newPlan_ridge fuel side p : 0 <= bossDiameter (bossCfg c) -> newPlan c fuel side = Ok p -> exists l,
  thumb_edge (planLayout p) l /\
  (exists s, 0 < s /\ P (cos (thumbFrontAngle c + splitAngle c) + 1) (sin (thumbFrontAngle c + splitAngle c)) 0 = scaled s (pnormal (planThumbL p))) /\
  (exists q, on_line l q /\ on_plane (pinkyIF (planPlanes p)) q /\ on_plane (planThumbL p) q) /\
  ridge_front (flat_map kbounds (lthumb (planLayout p) SideBoth)) l (thumbOLBp (planPoints p)) (thumbILFp (planPoints p)) (ridgeORF (planPoints p)).
Proof.
  intros D0 H. unfold newPlan in H. apply bind_ok in H. destruct H as ([y1 ps1] & E1 & H). apply bind_ok in H. destruct H as ([y2 ps2] & E2 & H).
  apply bind_ok in H. destruct H as (w & E3 & H). cbn [fst] in H. apply bind_ok in H. destruct H as ([y3 w3] & E4 & H).
  apply bind_ok in H. destruct H as ([l tl] & E5 & H). cbn [fst snd] in H. apply bind_ok in H. destruct H as ([rI rO] & E6 & H). apply bind_ok in H. destruct H as (pts & E7 & H).
  apply bind_ok in H. destruct H as ([[[y ps] tl'] pts'] & E8 & H). apply bind_ok in H. destruct H as (bs & E9 & H). apply bind_ok in H. destruct H as (h & _ & H). apply Ok_inj in H. subst p.
  pose proof (planTent_ok c side y1 ps1 E1) as T1. pose proof (planTilt_ok c side y1 ps1 y2 ps2 T1 E2) as T2. destruct (planWalls_ok c fuel D0 side y2 ps2 w T2 E3) as (W & EW).
  destruct (planX_ok c side y2 w y3 w3 W E4) as (W3 & _). destruct (w_front _ _ _ _ W3) as (GF & _).
  assert (BU : forall k, In k (lthumb y3 SideBoth) -> Built (kmatrix k)) by (intros k Hk; apply (t_bounded _ _ _ _ (w_tented _ _ _ _ W3) k), lall_in; auto).
  destruct (thumbCorner_ok y3 w3 l tl BU GF E5) as (TE & WT & (s & Hs & Es) & (q & Q1 & Q2 & Q3)).
  destruct (planZ_ok c side y3 w3 tl pts y ps tl' pts' WT W3 E8) as (hz & EY & W4 & SZ & _ & _ & S3 & _ & ET & EPt & _).
  destruct (bodyPoints_ok w3 tl (rI, rO) pts E7) as (C & CI & CO & _). cbn [fst snd] in CI, CO.
  destruct (ridge_shape y3 w3 l tl rI rO (proj1 TE) E6) as (o & e & M1 & M2 & RF).
  assert (EO : thumbOLBp pts = o /\ thumbILFp pts = e).
  { unfold bodyPoints in E7. cbv zeta in E7. do 18 (apply bind_ok in E7; destruct E7 as (? & ? & E7)). apply Ok_inj in E7. subst pts. cbn [thumbOLBp thumbILFp].
    destruct M1 as (A1 & A2 & A3). destruct M2 as (B1 & B2 & B3). split; eapply meet_unique; eassumption. }
  destruct EO as (EO & EE). exists l. cbn [planLayout planThumbL planPlanes planPoints]. subst y tl' pts'.
  split; [apply edge_shift; assumption|]. split; [|split].
  - exists s. split; [exact Hs|]. cbn [shift_plane pnormal]. rewrite <- Es, (w_dirF _ _ _ _ W3). apply pt_ext; unfold plus, P, X, Y, Z; cbn [vx vy vz]; rn; ring.
  - assert (NZ : Z (pnormal tl) = 0).
    { pose proof (f_equal Z Es) as Q. rewrite (w_dirF _ _ _ _ W3) in Q. unfold plus, scaled, P, Z in *. cbn [vz] in *. rn. replace (0 + 0) with 0 in Q by ring. symmetry in Q. apply Rmult_integral in Q. destruct Q; [lra|assumption]. }
    exists q. split; [exact Q1|]. split.
    + apply on_rise. destruct (w_planes _ _ _ _ W4 q) as (_ & _ & R1 & _). cbn [wPlanes wF] in R1. rewrite R1. destruct (on_line_ground _ _ GF Q2) as (Q & _). rewrite Q. ring.
    + apply on_rise. unfold rise, shift_plane. cbn [ppos pnormal]. rewrite Q3. unfold inner, minus, plus, P, X, Y, Z in *. cbn [vx vy vz]. rewrite NZ. rn. ring.
  - cbn [mapPoints thumbOLBp thumbILFp ridgeORF]. rewrite EO, EE, CO, thumb_all, (kbounds_map _ _ _ (carries_move _) BU). apply ridge_shift, RF.
Qed.

(** ** the hitch *)
Lemma newBoss_pos q bc (pos dir : pt) wd rp b : @newBoss Rnum q bc pos dir wd rp = Ok b -> bossPos b = pos.
Proof.
  unfold newBoss. intros H. apply bind_ok in H. destruct H as (? & _ & H). apply bind_ok in H. destruct H as ([[[? ?] ?] ?] & _ & H). apply bind_ok in H. destruct H as (? & _ & H). apply bind_ok in H. destruct H as ([[[? ?] ?] ?] & _ & H).
  apply Ok_inj in H. subst b. reflexivity.
Qed.
Lemma hitch_line (u : pt) (x0 y0 h t : R) (o v : pt) l lf : unit_vec u -> Z u = 0 -> Z o = 0 ->
  let at_ x y := P (X o + x * X u - y * Y u) (Y o + x * Y u + y * X u) 0 in
  ground_line l -> ground_line lf -> 
  lpos lf = at_ 0 h -> ldir lf = u -> lpos l = at_ x0 y0 -> (exists k, k <> 0 /\ ldir l = scaled k (minus (at_ (- sin t) (cos t)) o)) ->
  lintersect lf l = Ok v -> cos t <> 0 /\ v = at_ (x0 + (y0 - h) * (sin t / cos t)) h.
Proof.
  intros U Zu Zo at_ G GF LF DF LP (k & K0 & LD) H. unfold unit_vec, inner in U. rewrite Zu in U.
  assert (CT : cos t <> 0).
  { intros C. pose proof (meet_inv _ _ _ GF G H) as Q. rewrite DF, LD in Q.
    destruct G as (Ul & _). rewrite LD in Ul. unfold unit_vec in Ul.
    assert (E1 : inner u (scaled k (minus (at_ (- sin t) (cos t)) o)) = - k * sin t).
    { unfold at_, inner, scaled, minus, P, X, Y, Z in *. cbn [vx vy vz]. rewrite C, Zu. rn. transitivity (- k * sin t * (vx u * vx u + vy u * vy u + 0 * 0)); [ring|]. rewrite U. ring. }
    assert (E2 : inner (scaled k (minus (at_ (- sin t) (cos t)) o)) (scaled k (minus (at_ (- sin t) (cos t)) o)) = k * k * (sin t * sin t)).
    { unfold at_, inner, scaled, minus, P, X, Y, Z in *. cbn [vx vy vz]. rewrite C, Zo. rn. transitivity (k * k * (sin t * sin t) * (vx u * vx u + vy u * vy u + 0 * 0)); [ring|]. rewrite U. ring. }
    rewrite E2 in Ul. rewrite E1 in Q. replace (- k * sin t * (- k * sin t)) with (k * k * (sin t * sin t)) in Q by ring. rewrite Ul in Q. pose proof eps_pos. lra. }
  split; [exact CT|]. apply (lintersect_common lf l); [apply GF|apply G|exact H| |].
  - exists (x0 + (y0 - h) * (sin t / cos t)). rewrite LF, DF. unfold at_, plus, scaled, P, X, Y, Z in *. cbn [vx vy vz]. rewrite Zu. apply pt_ext; unfold X, Y, Z; cbn [vx vy vz]; rn; ring.
  - exists (- (y0 - h) / (k * cos t)). rewrite LP, LD. unfold at_, plus, minus, scaled, P, X, Y, Z in *. cbn [vx vy vz]. rewrite Zo. apply pt_ext; unfold X, Y, Z; cbn [vx vy vz]; rn; field; split; assumption.
Qed.
Lemma frame_rigid (a b : pt) x y x' y' : edist2 a b <> 0 -> edist2 (frame a b x y) (frame a b x' y') = sqrt ((x - x')² + (y - y')²).
Proof.
  intros N. unfold edist2 at 1. f_equal. unfold frame, sqdist2, P, X, Y. cbn [vx vy].
  assert (S : edist2 a b * edist2 a b = (vx b - vx a) * (vx b - vx a) + (vy b - vy a) * (vy b - vy a)).
  { unfold edist2. rewrite sqrt_sqrt; unfold sqdist2, Rsqr, X, Y; [ring|]. pose proof (Rle_0_sqr (vx a - vx b)) as Q1. pose proof (Rle_0_sqr (vy a - vy b)) as Q2. unfold Rsqr in *. lra. }
  set (n := edist2 a b) in *. unfold Rsqr. rn.
  transitivity (((x - x') * (x - x') + (y - y') * (y - y')) * ((vx b - vx a) * (vx b - vx a) + (vy b - vy a) * (vy b - vy a)) / (n * n)); [field; exact N|]. rewrite <- S. field. exact N.
Qed.
Lemma neg_neg (q : pt) : q = scaled (-1) (scaled (-1) q).
Proof. destruct q as [x y z]. unfold scaled, P, X, Y, Z. cbn [vx vy vz]. apply pt_ext; unfold X, Y, Z; cbn [vx vy vz]; rn; ring. Qed.
Theorem planHitch_ok (h : @hitch_cfg Rnum) pts ht : planHitch c h pts = Ok ht ->
  let a := pinkyORFp pts in let b := thumbOLFp pts in
  let d := hitchDepth h in let s := hitchScrewPitch h in let m := palmBodyMargin h in let t := palmTaperAngle h in
  let half y := s / 2 + d / 2 / cos t + (m + d / 2 - y) * (sin t / cos t) in
  edist2 a b <> 0 /\ cos t <> 0 /\
  bossPos (bossHitchL ht) = frame a b (s / 2) (m + d / 2) /\ bossPos (bossHitchR ht) = frame a b (- (s / 2)) (m + d / 2) /\
  hitchOLB ht = frame a b (half 0) 0 /\ hitchORB ht = frame a b (- half 0) 0 /\
  hitchOLF ht = frame a b (half (m + d)) (m + d) /\ hitchORF ht = frame a b (- half (m + d)) (m + d).
Proof.
  intros H a b d s m t half. unfold planHitch in H. cbv zeta in H. fold a b in H. fold d s m t in H.
  apply bind_ok in H. destruct H as (u & EU & H).
  set (mu := vhalf (vadd (vxy b) (vxy a))) in H. set (mm := vadd mu (vscale (vortho2D u) (nadd m (ndiv d (nZ 2))))) in H. set (mf := vadd mu (vscale (vortho2D u) (nadd m d))) in H.
  set (dl := transformed (vortho2D u) (mrotZ mid t None)) in H. set (dr := vopp (transformed (vortho2D u) (mrotZ mid (nopp t) None))) in H.
  set (pl := vadd mm (vhalf (vscale u s))) in H. set (pr := vsub mm (vhalf (vscale u s))) in H.
  apply bind_ok in H. destruct H as (lB & EB & H). apply bind_ok in H. destruct H as (lF & EF & H). apply bind_ok in H. destruct H as (lL & EL & H). apply bind_ok in H. destruct H as (lR & ER & H).
  apply bind_ok in H. destruct H as (olb & I1 & H). apply bind_ok in H. destruct H as (orb & I2 & H). apply bind_ok in H. destruct H as (olf & I3 & H). apply bind_ok in H. destruct H as (orf & I4 & H).
  apply bind_ok in H. destruct H as (bl & B1 & H). apply bind_ok in H. destruct H as (br & B2 & H). apply Ok_inj in H. subst ht. cbn [hitchOLB hitchORB hitchOLF hitchORF bossHitchL bossHitchR].
  destruct (vnorm_ok _ _ EU) as (NU & UU).
  assert (LE : len (vsub (vxy b) (vxy a)) = edist2 a b) by (unfold len, edist2; f_equal; unfold inner, sqdist2, vsub, vxy, X, Y, Z; cbn [vx vy vz]; rn; unfold Rsqr; ring).
  assert (N : edist2 a b <> 0) by (rewrite <- LE; apply Rgt_not_eq, len_pos, NU).
  pose proof (vnorm_unit _ _ EU) as Uu.
  assert (Zu : Z u = 0) by (rewrite UU; unfold scaled, vsub, vxy, P, Z; cbn [vz]; rn; ring).
  assert (Xu : X u = (X b - X a) / edist2 a b) by (rewrite UU, LE; unfold scaled, vsub, vxy, P, X; cbn [vx]; rn; field; exact N).
  assert (Yu : Y u = (Y b - Y a) / edist2 a b) by (rewrite UU, LE; unfold scaled, vsub, vxy, P, Y; cbn [vy]; rn; field; exact N).
  assert (FR : forall x y, frame a b x y = P (X mu + x * X u - y * Y u) (Y mu + x * Y u + y * X u) 0).
  { intros x y. rewrite Xu, Yu. unfold frame, mu, vhalf, vadd, vxy, P, X, Y. cbn [vx vy]. apply pt_ext; unfold X, Y, Z; cbn [vx vy vz]; rn; field; exact N. }
  assert (Zm : Z mu = 0) by (unfold mu, vhalf, vadd, vxy, Z; cbn [vz]; rn; field).
  assert (DL : dl = minus (frame a b (- sin t) (cos t)) mu).
  { unfold dl. rewrite app_rotZ by apply affine_mid. cbn [ctr]. rewrite transformed_mid, FR. unfold rotZ_pt, origin, vortho2D, minus, P, X, Y, Z in *. cbn [vx vy vz]. rewrite Zm.
    apply pt_ext; unfold X, Y, Z; cbn [vx vy vz]; rn; ring. }
  assert (DR : dr = scaled (-1) (minus (frame a b (- sin (- t)) (cos (- t))) mu)).
  { unfold dr. rewrite app_rotZ by apply affine_mid. cbn [ctr]. rewrite transformed_mid, FR. unfold vopp, scaled, rotZ_pt, origin, vortho2D, minus, P, X, Y, Z in *. cbn [vx vy vz]. rewrite Zm. rn.
    apply pt_ext; unfold X, Y, Z; cbn [vx vy vz]; rn; ring. }
  assert (PL : pl = frame a b (s / 2) (m + d / 2)).
  { rewrite FR. unfold pl, mm, vadd, vhalf, vscale, vortho2D, P, X, Y, Z in *. cbn [vx vy vz]. rewrite Zm, Zu. apply pt_ext; unfold X, Y, Z; cbn [vx vy vz]; rn; field. }
  assert (PR : pr = frame a b (- (s / 2)) (m + d / 2)).
  { rewrite FR. unfold pr, mm, vsub, vadd, vhalf, vscale, vortho2D, P, X, Y, Z in *. cbn [vx vy vz]. rewrite Zm, Zu. apply pt_ext; unfold X, Y, Z; cbn [vx vy vz]; rn; field. }
  destruct (ground_new _ _ _ Zm Zu EB) as (GB & PB & kb & Kb & DB).
  assert (Zf : Z mf = 0) by (unfold mf, vadd, vscale, vortho2D, Z in *; cbn [vz]; rn; rewrite Zm; ring).
  destruct (ground_new _ _ _ Zf Zu EF) as (GF & PF & kf & Kf & DF).
  assert (UE : forall (l : @line Rnum) pos, newLine pos u = Ok l -> ldir l = u).
  { intros l pos E. unfold newLine in E. rewrite vnorm_of_unit in E by exact Uu. cbn [bind] in E. apply Ok_inj in E. subst l. reflexivity. }
  match type of EL with newLine ?p _ = _ => set (ql := p) in EL end. match type of ER with newLine ?p _ = _ => set (qr := p) in ER end.
  assert (QL : ql = frame a b (s / 2 + d / 2 * cos t) (m + d / 2 + d / 2 * sin t)).
  { unfold ql. rewrite PL, DL, !FR. unfold vsub, vhalf, vscale, vortho2D, minus, P, X, Y, Z in *. cbn [vx vy vz]. apply pt_ext; unfold X, Y, Z; cbn [vx vy vz]; rn; field. }
  assert (QR : qr = frame a b (- (s / 2) - d / 2 * cos t) (m + d / 2 + d / 2 * sin t)).
  { unfold qr. rewrite PR, DR, !FR. rewrite cos_neg, sin_neg. unfold scaled, vsub, vhalf, vscale, vortho2D, minus, P, X, Y, Z in *. cbn [vx vy vz]. apply pt_ext; unfold X, Y, Z; cbn [vx vy vz]; rn; field. }
  assert (Zql : Z ql = 0) by (rewrite QL; reflexivity). assert (Zqr : Z qr = 0) by (rewrite QR; reflexivity).
  assert (Zdl : Z dl = 0) by (rewrite DL; unfold frame, minus, P, Z in *; cbn [vz]; rn; rewrite Zm; ring).
  assert (Zdr : Z dr = 0) by (rewrite DR; unfold frame, scaled, minus, P, Z in *; cbn [vz]; rn; rewrite Zm; ring).
  destruct (ground_new _ _ _ Zql Zdl EL) as (GL & LPL & kl & Kl & DLl). destruct (ground_new _ _ _ Zqr Zdr ER) as (GR & LPR & kr & Kr & DRr).
  assert (KL : exists k, k <> 0 /\ ldir lL = scaled k (minus (P (X mu + - sin t * X u - cos t * Y u) (Y mu + - sin t * Y u + cos t * X u) 0) mu)).
  { exists (/ kl). split; [apply Rinv_neq_0_compat; lra|]. rewrite <- FR, <- DL, DLl. destruct (ldir lL) as [x0 y0 z0]. unfold scaled, P, X, Y, Z. cbn [vx vy vz]. apply pt_ext; unfold X, Y, Z; cbn [vx vy vz]; rn; field; lra. }
  assert (KR : exists k, k <> 0 /\ ldir lR = scaled k (minus (P (X mu + - sin (- t) * X u - cos (- t) * Y u) (Y mu + - sin (- t) * Y u + cos (- t) * X u) 0) mu)).
  { exists (- / kr). split; [apply Ropp_neq_0_compat, Rinv_neq_0_compat; lra|]. rewrite <- FR. 
    assert (E : minus (frame a b (- sin (- t)) (cos (- t))) mu = scaled (-1) dr) by (rewrite DR; apply neg_neg).
    rewrite E, DRr. destruct (ldir lR) as [x0 y0 z0]. unfold scaled, P, X, Y, Z. cbn [vx vy vz]. apply pt_ext; unfold X, Y, Z; cbn [vx vy vz]; rn; field; lra. }
  assert (P0 : mu = P (X mu + 0 * X u - 0 * Y u) (Y mu + 0 * Y u + 0 * X u) 0) by (apply pt_ext; unfold P, X, Y, Z in *; cbn [vx vy vz]; rn; lra).
  assert (P1 : mf = P (X mu + 0 * X u - (m + d) * Y u) (Y mu + 0 * Y u + (m + d) * X u) 0).
  { unfold mf, vadd, vscale, vortho2D, P, X, Y, Z in *. cbn [vx vy vz]. rewrite Zm. apply pt_ext; unfold X, Y, Z; cbn [vx vy vz]; rn; ring. }
  rewrite FR in QL, QR.
  pose proof (hitch_line u _ _ 0 t mu _ _ _ Uu Zu Zm GL GB (eq_trans PB P0) (UE _ _ EB) (eq_trans LPL QL) KL I1) as (CT & R1).
  pose proof (hitch_line u _ _ 0 (- t) mu _ _ _ Uu Zu Zm GR GB (eq_trans PB P0) (UE _ _ EB) (eq_trans LPR QR) KR I2) as (_ & R2).
  pose proof (hitch_line u _ _ (m + d) t mu _ _ _ Uu Zu Zm GL GF (eq_trans PF P1) (UE _ _ EF) (eq_trans LPL QL) KL I3) as (_ & R3).
  pose proof (hitch_line u _ _ (m + d) (- t) mu _ _ _ Uu Zu Zm GR GF (eq_trans PF P1) (UE _ _ EF) (eq_trans LPR QR) KR I4) as (_ & R4).
  split; [exact N|]. split; [exact CT|]. split; [rewrite (newBoss_pos _ _ _ _ _ _ _ B1); exact PL|]. split; [rewrite (newBoss_pos _ _ _ _ _ _ _ B2); exact PR|].
  rewrite sin_neg, cos_neg in R2, R4. rewrite !FR.
  assert (HF : forall y, half y = s / 2 + d / 2 * cos t + (m + d / 2 + d / 2 * sin t - y) * (sin t / cos t)).
  { intros y. unfold half. assert (S : sin t * sin t = 1 - cos t * cos t) by (pose proof (sc1 t); lra).
    transitivity (s / 2 + (m + d / 2 - y) * (sin t / cos t) + d / 2 * (cos t * cos t + (1 - cos t * cos t)) / cos t); [field; exact CT|]. rewrite <- S. field. exact CT. }
  rewrite !HF, R1, R2, R3, R4.
  assert (E1 : forall x y z w v : R, v <> 0 -> - x - y + z * (- w / v) = - (x + y + z * (w / v))) by (intros; field; assumption).
  rewrite !E1 by exact CT. auto.
Qed.
Theorem newPlan_hitch fuel side p h : newPlan c fuel side = Ok p -> palm c = Some h -> exists ht, planHitch_ p = Some ht /\ planHitch c h (planPoints p) = Ok ht.
Proof.
  intros H E. unfold newPlan in H. rewrite E in H. apply bind_ok in H. destruct H as ([y1 ps1] & E1 & H). apply bind_ok in H. destruct H as ([y2 ps2] & E2 & H).
  apply bind_ok in H. destruct H as (w & E3 & H). cbn [fst] in H. apply bind_ok in H. destruct H as ([y3 w3] & E4 & H).
  apply bind_ok in H. destruct H as ([l tl] & E5 & H). cbn [fst snd] in H. apply bind_ok in H. destruct H as ([rI rO] & E6 & H). apply bind_ok in H. destruct H as (pts & E7 & H).
  apply bind_ok in H. destruct H as ([[[y ps] tl'] pts'] & E8 & H). apply bind_ok in H. destruct H as (bs & E9 & H). apply bind_ok in H. destruct H as (o & EH & H). apply Ok_inj in H. subst p.
  apply bind_ok in EH. destruct EH as (ht & EH & Q). apply Ok_inj in Q. subst o. exists ht. split; [reflexivity|exact EH].
Qed.
End Ridge.
