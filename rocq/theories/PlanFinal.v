(** The planner's last stage: the final position, the reference points and the checks. *)
From Coq Require Import Reals Lra Psatz List Bool ZArith Lia.
From Verif Require Import Num GeoModel GeoSpec GeoMat GeoRigid GeoPlane GeoIso EdgeModel ArcModel ArcSpec ArcProof
  KeyModel LayoutModel LayoutSpec LayoutProof BossModel PlanModel HullSpec PlanSpec WallProof BossFit BossFit2 BossKeys PlanMove PlanTent PlanWalls.
Import ListNotations.
Open Scope R_scope.

(** ** columns of a moved layout *)
Section Cols.
Context {N : Num}.
Implicit Types (y : @layout N) (f : @key N -> @key N).
Lemma mapM_forward {A A' B B'} (h : A -> res B) (h' : A' -> res B') (F : A -> A') (G : B -> B') l bs :
  (forall a b, In a l -> h a = Ok b -> h' (F a) = Ok (G b)) -> mapM h l = Ok bs -> mapM h' (map F l) = Ok (map G bs).
Proof.
  revert bs. induction l as [|x l IH]; intros bs K H; cbn [mapM map] in *; [injection H as <-; reflexivity|].
  apply bind_ok in H. destruct H as (b & Hb & H). apply bind_ok in H. destruct H as (bs' & Hbs & H). injection H as <-.
  rewrite (K x b (or_introl eq_refl) Hb). cbn [bind]. rewrite (IH bs' (fun a b' I E => K a b' (or_intror I) E) Hbs). reflexivity.
Qed.
Lemma pyidx_map {A B} (f : A -> B) l i x : pyidx l i = Ok x -> pyidx (map f l) i = Ok (f x).
Proof.
  unfold pyidx. rewrite map_length. cbv zeta. destruct (Z.ltb (if (i <? 0)%Z then _ else i) 0); [discriminate|]. rewrite nth_error_map.
  destruct (nth_error l _); [|discriminate]. intros H. injection H as <-. reflexivity.
Qed.
(* mapAll, row by row *)
Definition allRow f (row : list (list (option (@key N)))) : list (list (option key)) :=
  map (fun ig => if Nat.eqb (fst ig) 1 then map (option_map f) (snd ig) else snd ig)
    (combine (seq 0 (length row)) (map (fun ig => if Nat.eqb (fst ig) 0 then map (option_map f) (snd ig) else snd ig) (combine (seq 0 (length row)) row))).
Lemma halves_all f y s : halves (mapAll f y) s = map (map (allRow f)) (halves y s).
Proof.
  assert (E : forall h, mapHalf 1 f (mapHalf 0 f h) = map (allRow f) h).
  { intros h. unfold mapHalf. rewrite map_map. apply map_ext. intros row. unfold allRow. rewrite map_length, combine_length, seq_length, Nat.min_id. reflexivity. }
  destruct s; cbn [halves mapAll mapThumb mapFingers fingersL fingersR map]; rewrite ?E; reflexivity.
Qed.
Lemma allRow_nth f row g : (g < 2)%nat -> nth g (allRow f row) [] = map (option_map f) (nth g row []).
Proof.
  intros Hg. unfold allRow. set (row0 := map (fun ig => if Nat.eqb (fst ig) 0 then _ else _) (combine (seq 0 (length row)) row)).
  assert (L : length row0 = length row) by (unfold row0; rewrite map_length, combine_length, seq_length; lia). rewrite <- L. rewrite row_nth. unfold row0. rewrite row_nth.
  destruct g as [|[|g]]; [reflexivity|reflexivity|lia].
Qed.
Lemma concat_maps {A B} (f : A -> B) ls : concat (map (map f) ls) = map f (concat ls).
Proof. symmetry. apply concat_map. Qed.
Lemma lcol_all f y g i s ks : (g < 2)%nat -> lcol y g i s = Ok ks -> lcol (mapAll f y) g i s = Ok (map f ks).
Proof.
  intros Hg H. unfold lcol in *. rewrite halves_all. apply bind_ok in H. destruct H as (hs & H & E). injection E as <-.
  erewrite (mapM_forward _ _ (map (allRow f)) (map f)); [|clear H|exact H]; [cbn [bind]; rewrite concat_maps; reflexivity|].
  intros half ks _ E. apply bind_ok in E. destruct E as (os & Eo & E). injection E as <-.
  erewrite (mapM_forward _ _ (allRow f) (option_map f)); [|clear Eo|exact Eo]; [cbn [bind]; rewrite present_map; reflexivity|].
  intros row o _ Ho. cbn beta. rewrite allRow_nth by exact Hg. apply pyidx_map, Ho.
Qed.
Lemma lperCol_all f y g i s ks : (g < 2)%nat -> lperCol y g i s = Ok ks -> lperCol (mapAll f y) g i s = Ok (map f ks).
Proof.
  intros Hg H. unfold lperCol in *. rewrite halves_all. apply bind_ok in H. destruct H as (hs & H & E). injection E as <-.
  erewrite (mapM_forward _ _ (map (allRow f)) (map f)); [|clear H|exact H]; [cbn [bind]; rewrite concat_maps; reflexivity|].
  intros half ks _ E. apply bind_ok in E. destruct E as (first & Ef & E). cbn beta. rewrite (pyidx_map (allRow f) _ _ _ Ef). cbn [bind].
  rewrite allRow_nth, map_length by exact Hg.
  rewrite <- (map_id (seq 0 (length (nth g first [])))). refine (mapM_forward _ _ (fun n => n) f _ ks _ E).
  intros n k _ Hn. apply bind_ok in Hn. destruct Hn as (col & Hc & Hk). cbn beta. rewrite (lcol_all f y g _ s col Hg Hc). cbn [bind]. apply pyidx_map, Hk.
Qed.
End Cols.

(** ** translations *)
Lemma spanned_shift vs (v w : pt) : spanned (map (fun p => plus p v) vs) w -> exists u, spanned vs u /\ X w = X u + X v /\ Y w = Y u + Y v.
Proof.
  induction 1 as [p w I E1 E2|a b w _ (a' & Sa & A1 & A2) _ (b' & Sb & B1 & B2) (t & T & T1 & T2)].
  - apply in_map_iff in I. destruct I as (q & <- & I). exists q. split; [eapply sp_point; eauto|]. split; assumption.
  - exists (at2 a' b' t). split; [apply (sp_between vs a' b'); [exact Sa|exact Sb|exists t; auto]|].
    rewrite T1, T2. unfold at2, P, X, Y in *. cbn [vx vy] in *. rewrite A1, A2, B1, B2. rn. split; ring.
Qed.
Lemma edist2_shift (w u p v v' : pt) : X w = X u + X v -> Y w = Y u + Y v -> X v' = X v -> Y v' = Y v -> edist2 w (plus p v') = edist2 u p.
Proof.
  intros E1 E2 E3 E4. unfold edist2, sqdist2. f_equal. rewrite E1, E2. unfold plus, P, X, Y in *. cbn [vx vy]. rewrite E3, E4. rn. unfold Rsqr. ring.
Qed.
Definition shift_line (u : pt) (l : @line Rnum) : @line Rnum := mkLine (plus (lpos l) u) (ldir l).
Lemma beyond_shift u v l (p : pt) : X u = X v -> Y u = Y v -> beyond (shift_line u l) (plus p v) = beyond l p.
Proof. intros E1 E2. unfold beyond, shift_line. cbn [lpos ldir]. unfold plus, P, X, Y in *. cbn [vx vy]. rewrite E1, E2. rn. ring. Qed.
Lemma shift_ground u l : Z u = 0 -> ground_line l -> ground_line (shift_line u l).
Proof. intros Hu (U & D & L). split; [exact U|]. split; [exact D|]. unfold shift_line, plus, P, Z in *. cbn [lpos vz]. rn. lra. Qed.
Lemma plus_minus (p v : pt) : p = plus (minus p v) v.
Proof. assert (E : forall x y : R, x = x - y + y) by (intros; ring). apply pt_ext; apply E. Qed.

Section Fin.
Variable c : @plan_cfg Rnum.
Let r := bossDiameter (bossCfg c) / 2.
Let margin := outerWallMargin (bossCfg c).

Lemma clear_shift ks (pos v u : pt) : (forall k, In k ks -> Built (kmatrix k)) -> X u = X v -> Y u = Y v -> keys_clear c ks pos -> keys_clear c (map (move v) ks) (plus pos u).
Proof.
  intros B E1 E2 K k Hk w Hw. apply in_map_iff in Hk. destruct Hk as (k0 & <- & Hk).
  destruct (carries_bounds _ _ k0 (carries_move v) (B k0 Hk)) as (EI & _). rewrite EI in Hw. destruct (spanned_shift _ _ _ Hw) as (q & Sq & Q1 & Q2).
  rewrite (edist2_shift w q pos v u) by assumption. apply (K k0 Hk q Sq).
Qed.
Lemma last_pinky_shift y i s k0 k1 f : last_pinky y i s k0 k1 -> last_pinky (mapAll f y) i s (f k0) (f k1).
Proof.
  intros (ks & C & E0 & E1). exists (map f ks). split; [apply lperCol_all; [lia|exact C]|]. split; apply pyidx_map; assumption.
Qed.
Definition shift_bosses (u : pt) (b : pt * pt * pt * pt) : pt * pt * pt * pt := let '(b1, b2, b3, b4) := b in (plus b1 u, plus b2 u, plus b3 u, plus b4 u).
Lemma bosses_shift y s lB lF bs a0 a1 (v u : pt) : (forall k, In k (lall y SideBoth) -> bounded k) -> In a0 (alnum y s) -> In a1 (alnum y s) -> X u = X v -> Y u = Y v -> Z u = 0 ->
  bosses_fit c y s lB lF bs a0 a1 -> bosses_fit c (mapAll (move v) y) s (shift_line u lB) (shift_line u lF) (shift_bosses u bs) (move v a0) (move v a1).
Proof.
  intros B I0 I1 E1 E2 E3 H. destruct bs as (((b1, b2), b3), b4). destruct H as (p0 & p1 & f0 & f1 & t0 & t1 & LP & LF & T0 & T1 & C1 & C2 & C3 & C4 & Y1 & Y2 & Y3 & Y4 & Z1 & Z2 & Z3 & Z4).
  assert (BU : forall k, In k (lall y s) -> Built (kmatrix k)) by (intros k Hk; apply (B k (lall_side y s k Hk))).
  cbn [shift_bosses bosses_fit]. exists (move v p0), (move v p1), (move v f0), (move v f1), (move v t0), (move v t1).
  split; [apply last_pinky_shift, LP|]. split; [apply last_pinky_shift, LF|]. rewrite thumb_all. split; [apply pyidx_map, T0|]. split; [apply pyidx_map, T1|].
  split; [apply (clear_shift [a0; a1]); [intros k [<-|[<-|[]]]; apply BU, lall_in; auto|exact E1|exact E2|exact C1]|].
  destruct (pinky_in _ _ _ _ _ LP). destruct (pinky_in _ _ _ _ _ LF). pose proof (pyidx_in _ _ _ T0). pose proof (pyidx_in _ _ _ T1).
  split; [apply (clear_shift [p0; p1]); [intros k [<-|[<-|[]]]; apply BU, lall_in; auto|exact E1|exact E2|exact C2]|].
  split; [apply (clear_shift [f0; f1]); [intros k [<-|[<-|[]]]; apply BU, lall_in; auto|exact E1|exact E2|exact C3]|].
  split; [apply (clear_shift [t0; t1]); [intros k [<-|[<-|[]]]; apply BU, lall_in; auto|exact E1|exact E2|exact C4]|].
  rewrite !(beyond_shift u u) by reflexivity. unfold plus, P, Z in *. cbn [vz]. rn. repeat split; try assumption; lra.
Qed.
Lemma pair_shift t u w : Z u = 0 -> wall_pair t w -> wall_pair t (shift_line u (fst w), shift_line u (snd w)).
Proof.
  intros Hu (G1 & G2 & (D & _ & M)). split; [apply shift_ground; assumption|]. split; [apply shift_ground; assumption|]. split; [exact D|]. split; [apply shift_ground; assumption|].
  intros p. cbn [fst snd]. rewrite (plus_minus p u). rewrite !(beyond_shift u u) by reflexivity. apply M.
Qed.
Lemma walled_shift side y w (v u : pt) ps' : X u = X v -> Y u = Y v -> Z u = 0 -> walled c side y w -> mapPlanesB (fun p => ptranslated p v) (wPlanes w) = Ok ps' ->
  walled c side (mapAll (move v) y) (mkWalls ps' (shift_line u (fst (wB w)), shift_line u (snd (wB w))) (shift_line u (fst (wF w)), shift_line u (snd (wF w))) (shift_bosses u (wBoss w))).
Proof.
  intros E1 E2 E3 W E. pose proof (mapPlanesB_ok _ _ _ E) as (EA & EB1 & EB2 & EB3 & EB4). destruct W as [T WB WF DB DF WP WW WI WO]. destruct WW as (V1 & V2 & V3 & V4). destruct WI as (J1 & J2 & J3 & J4).
  pose proof (keeps_move v) as K. pose proof (carries_move v) as CM.
  assert (BU : forall k, In k (lall y SideBoth) -> Built (kmatrix k)) by (intros k Hk; apply (t_bounded _ _ _ _ T k Hk)).
  destruct (keeps_ok _ _ _ _ K V1 EB1) as (U1 & R1). destruct (keeps_ok _ _ _ _ K V2 EB2) as (U2 & R2). destruct (keeps_ok _ _ _ _ K V3 EB3) as (U3 & R3). destruct (keeps_ok _ _ _ _ K V4 EB4) as (U4 & R4).
  constructor; cbn [wPlanes wB wF wBoss fst snd].
  - eapply tented_moved; [exact CM|exact K|exact T|exact EA].
  - apply pair_shift; assumption.
  - apply pair_shift; assumption.
  - exact DB.
  - exact DF.
  - intros p. rewrite (plus_minus p v). destruct (WP (minus p v)) as (Q1 & Q2 & Q3 & Q4). rewrite R1, R2, R3, R4, !(beyond_shift u v) by assumption. auto.
  - auto.
  - rewrite lall_all. destruct (below_map _ _ _ CM BU) as (-> & ->).
    split; [exact (inside_moved _ _ _ _ _ K V1 EB1 J1)|]. split; [exact (inside_moved _ _ _ _ _ K V2 EB2 J2)|]. split; [exact (inside_moved _ _ _ _ _ K V3 EB3 J3)|exact (inside_moved _ _ _ _ _ K V4 EB4 J4)].
  - destruct WO as (cols & i & j & a0 & a1 & C & N & A0 & A1 & BF). exists (map (move v) cols), i, j, (move v a0), (move v a1).
    split; [apply lperCol_all; [lia|exact C]|]. split; [exact N|]. rewrite !nth_error_map, A0, A1. split; [reflexivity|]. split; [reflexivity|].
    apply bosses_shift; try assumption; [apply (t_bounded _ _ _ _ T)|eapply (lperCol_in y 0 0 side cols); [exact C|eapply nth_error_In; exact A0]|eapply (lperCol_in y 0 0 side cols); [exact C|eapply nth_error_In; exact A1]].
Qed.

(** ** three planes *)
Lemma on_rise pl v : on_plane pl v <-> rise pl v = 0. Proof. reflexivity. Qed.
Lemma three_zero (a b d w : pt) : triple a b d <> 0 -> inner w a = 0 -> inner w b = 0 -> inner w d = 0 -> w = origin.
Proof.
  intros T A B D. destruct a as [ax ay az], b as [bx by_ bz], d as [dx dy dz], w as [wx wy wz]. unfold triple, inner, X, Y, Z in *. cbn [vx vy vz] in *. rn.
  set (t := ax * (by_ * dz - bz * dy) - ay * (bx * dz - bz * dx) + az * (bx * dy - by_ * dx)) in *.
  assert (K : forall x, t * x = 0 -> x = 0) by (intros x Hx; apply Rmult_integral in Hx; destruct Hx; [contradiction|assumption]).
  assert (Ex : t * wx = (wx * ax + wy * ay + wz * az) * (by_ * dz - bz * dy) - (wx * bx + wy * by_ + wz * bz) * (ay * dz - az * dy) + (wx * dx + wy * dy + wz * dz) * (ay * bz - az * by_)) by (unfold t; ring).
  assert (Ey : t * wy = - (wx * ax + wy * ay + wz * az) * (bx * dz - bz * dx) + (wx * bx + wy * by_ + wz * bz) * (ax * dz - az * dx) - (wx * dx + wy * dy + wz * dz) * (ax * bz - az * bx)) by (unfold t; ring).
  assert (Ez : t * wz = (wx * ax + wy * ay + wz * az) * (bx * dy - by_ * dx) - (wx * bx + wy * by_ + wz * bz) * (ax * dy - ay * dx) + (wx * dx + wy * dy + wz * dz) * (ax * by_ - ay * bx)) by (unfold t; ring).
  apply pt_ext; unfold X, Y, Z, origin, P; cbn [vx vy vz]; apply K; [rewrite Ex|rewrite Ey|rewrite Ez]; rewrite A, B, D; ring.
Qed.
Definition shift_plane (v : pt) (pl : @plane Rnum) : @plane Rnum := mkPlane (plus (ppos pl) v) (pnormal pl).
Lemma ptranslated_form (pl : @plane Rnum) (v : pt) : wf_plane pl -> ptranslated pl v = Ok (shift_plane v pl).
Proof. intros W. unfold ptranslated, newPlane. rewrite vnorm_of_unit by exact W. reflexivity. Qed.
Lemma rise_shift pl (v p : pt) : rise (shift_plane v pl) (plus p v) = rise pl p.
Proof. unfold rise, shift_plane. cbn [ppos pnormal]. f_equal. assert (E : forall a b c : R, a + b - (c + b) = a - c) by (intros; ring). apply pt_ext; apply E. Qed.
Lemma meet_unique pl a b (v w : pt) : pintersectPlanes pl a b = Ok v -> on_plane pl w -> on_plane a w -> on_plane b w -> v = w.
Proof.
  intros H W1 W2 W3. destruct (pintersectPlanes_sound _ _ _ _ H) as (V1 & V2 & V3).
  assert (T : triple (pnormal a) (pnormal b) (pnormal pl) <> 0).
  { intros T. assert (Q : exists e, pintersectPlanes pl a b = Err e) by (apply pintersectPlanes_err; rewrite T, Rabs_R0; unfold eps; lra). destruct Q as (e & Q). rewrite H in Q. discriminate. }
  assert (D : forall q, on_plane q v -> on_plane q w -> inner (minus v w) (pnormal q) = 0).
  { intros q Qv Qw. unfold on_plane in *. unfold inner, minus, P, X, Y, Z in *. cbn [vx vy vz] in *. rn. lra. }
  pose proof (three_zero _ _ _ _ T (D a V2 W2) (D b V3 W3) (D pl V1 W1)) as E.
  assert (EX : X (minus v w) = 0 /\ Y (minus v w) = 0 /\ Z (minus v w) = 0) by (rewrite E; repeat split; reflexivity).
  destruct EX as (E1 & E2 & E3). unfold minus, P, X, Y, Z in *. cbn [vx vy vz] in *. rn. apply pt_ext; unfold X, Y, Z; lra.
Qed.
Lemma meet_shift pl a b (v w d : pt) : pintersectPlanes pl a b = Ok v -> pintersectPlanes (shift_plane d pl) (shift_plane d a) (shift_plane d b) = Ok w -> w = plus v d.
Proof.
  intros H1 H2. destruct (pintersectPlanes_sound _ _ _ _ H1) as (V1 & V2 & V3). eapply meet_unique; [exact H2| | |]; apply on_rise; rewrite rise_shift; assumption.
Qed.

(** ** the x position *)
Definition left_of (d : R) (ps : @planesB Rnum) : Prop :=
  (forall v, on_plane (alnumIL (pA ps)) v -> on_plane (alnumIB ps) v -> on_plane (alnumIT (pA ps)) v -> d <= X v) /\
  (forall v, on_plane (alnumOL (pA ps)) v -> on_plane (alnumOB ps) v -> on_plane (alnumOT (pA ps)) v -> d <= X v).
Definition touches_left (d : R) (y : @layout Rnum) (ps : @planesB Rnum) : Prop :=
  (exists p, In p (flat_map kbounds (lall y SideBoth)) /\ X p = 0) \/
  (exists v, X v = d /\ (on_plane (alnumIL (pA ps)) v /\ on_plane (alnumIB ps) v /\ on_plane (alnumIT (pA ps)) v \/ on_plane (alnumOL (pA ps)) v /\ on_plane (alnumOB ps) v /\ on_plane (alnumOT (pA ps)) v)).
Lemma moveLines_form (d : pt) l l' : wf_line (fst l) -> wf_line (snd l) -> moveLines d l = Ok l' -> l' = (shift_line d (fst l), shift_line d (snd l)).
Proof.
  intros W1 W2 H. unfold moveLines in H. rewrite !ltranslated_wf in H by assumption. cbn [bind] in H. injection H as <-. reflexivity.
Qed.
Theorem planX_ok side y w y' w' : walled c side y w -> planX c y w = Ok (y', w') ->
  walled c side y' w' /\ (forall p, In p (flat_map kbounds (lall y' SideBoth)) -> 0 <= X p) /\ left_of (minRidgeWidth c / 2) (wPlanes w') /\ touches_left (minRidgeWidth c / 2) y' (wPlanes w').
Proof.
  intros W H. unfold planX in H. cbv zeta in H. apply bind_ok in H. destruct H as (ilb & EI & H). apply bind_ok in H. destruct H as (olb & EO & H). apply bind_ok in H. destruct H as (mx & EM & H).
  set (d := V (pmax (nopp mx) _) (nZ 0) (nZ 0)) in H.
  apply bind_ok in H. destruct H as (ps & EP & H). apply bind_ok in H. destruct H as (lB & EB & H). apply bind_ok in H. destruct H as (lF & EF & H).
  destruct (w_back _ _ _ _ W) as ((G1 & _) & (G2 & _) & _). destruct (w_front _ _ _ _ W) as ((G3 & _) & (G4 & _) & _).
  apply (moveLines_form d) in EB; [|exact G1|exact G2]. apply (moveLines_form d) in EF; [|exact G3|exact G4]. subst lB lF.
  pose proof (walled_shift side y w d d ps eq_refl eq_refl eq_refl W EP) as W'.
  destruct (wBoss w) as (((b1, b2), b3), b4) eqn:EBoss. injection H as <- <-. split; [exact W'|].
  assert (DX : X d = Rmax (- mx) (- Rmin (X olb) (X ilb) + minRidgeWidth c / 2)).
  { unfold d, X. cbn [vx]. rewrite pmax_R, pmin_R. reflexivity. }
  pose proof (Rmax_l (- mx) (- Rmin (X olb) (X ilb) + minRidgeWidth c / 2)) as ML. pose proof (Rmax_r (- mx) (- Rmin (X olb) (X ilb) + minRidgeWidth c / 2)) as MR.
  rewrite <- DX in ML, MR. pose proof (Rmin_l (X olb) (X ilb)) as NL. pose proof (Rmin_r (X olb) (X ilb)) as NR.
  destruct (minList_spec _ _ EM) as (MI & MX).
  assert (BU : forall k, In k (lall y SideBoth) -> Built (kmatrix k)) by (intros k Hk; apply (t_bounded _ _ _ _ (w_tented _ _ _ _ W) k Hk)).
  assert (KB : flat_map kbounds (lall (mapAll (move d) y) SideBoth) = map (fun p => plus p d) (flat_map kbounds (lall y SideBoth))) by (rewrite lall_all; apply kbounds_map; [apply carries_move|exact BU]).
  unfold pt in *. rewrite KB. cbn [wPlanes].
  split.
  { intros p Hp. apply in_map_iff in Hp. destruct Hp as (q & <- & Hq). specialize (MX (X q) (in_map vx _ _ Hq)). change (X (plus q d)) with (X q + X d). lra. }
  pose proof (mapPlanesB_ok _ _ _ EP) as (EA & EB1 & EB2 & _). pose proof (mapPlanesA_ok _ _ _ EA) as SA. pose proof (t_wf _ _ _ _ (w_tented _ _ _ _ W)) as TW.
  destruct (w_wf _ _ _ _ W) as (V1 & V2 & _).
  assert (SH : forall sel, In sel selA -> sel (pA ps) = shift_plane d (sel (pA (wPlanes w)))).
  { intros sel Hs. specialize (SA sel Hs). cbn beta in SA. rewrite ptranslated_form in SA by (apply TW, Hs). apply Ok_inj in SA. symmetry. exact SA. }
  rewrite ptranslated_form in EB1, EB2 by assumption. apply Ok_inj in EB1, EB2.
  assert (SIL : alnumIL (pA ps) = shift_plane d (alnumIL (pA (wPlanes w)))) by (apply SH; unfold selA; cbn [In]; auto 20).
  assert (SOL : alnumOL (pA ps) = shift_plane d (alnumOL (pA (wPlanes w)))) by (apply SH; unfold selA; cbn [In]; auto 20).
  assert (SIT : alnumIT (pA ps) = shift_plane d (alnumIT (pA (wPlanes w)))) by (apply SH; unfold selA; cbn [In]; auto 20).
  assert (SOT : alnumOT (pA ps) = shift_plane d (alnumOT (pA (wPlanes w)))) by (apply SH; unfold selA; cbn [In]; auto 20).
  assert (BACK : forall q v, on_plane (shift_plane d q) v -> on_plane q (minus v d)) by (intros q v Hv; apply on_rise; rewrite <- (rise_shift q d), <- plus_minus; exact Hv).
  assert (FWD : forall q v, on_plane q v -> on_plane (shift_plane d q) (plus v d)) by (intros q v Hv; apply on_rise; rewrite rise_shift; exact Hv).
  split.
  - split; intros v Q1 Q2 Q3.
    + rewrite SIL in Q1. rewrite <- EB1 in Q2. rewrite SIT in Q3. pose proof (meet_unique _ _ _ _ _ EI (BACK _ _ Q1) (BACK _ _ Q2) (BACK _ _ Q3)) as E.
      assert (EX : X ilb = X v - X d) by (rewrite E; reflexivity). lra.
    + rewrite SOL in Q1. rewrite <- EB2 in Q2. rewrite SOT in Q3. pose proof (meet_unique _ _ _ _ _ EO (BACK _ _ Q1) (BACK _ _ Q2) (BACK _ _ Q3)) as E.
      assert (EX : X olb = X v - X d) by (rewrite E; reflexivity). lra.
  - destruct (pintersectPlanes_sound _ _ _ _ EI) as (I1 & I2 & I3). destruct (pintersectPlanes_sound _ _ _ _ EO) as (O1 & O2 & O3).
    unfold touches_left. unfold pt in *. rewrite KB. destruct (Rle_dec (- Rmin (X olb) (X ilb) + minRidgeWidth c / 2) (- mx)) as [Q|Q].
    + left. apply in_map_iff in MI. destruct MI as (q & Eq & Hq). exists (plus q d). split; [apply in_map_iff; exists q; auto|].
      rewrite Rmax_left in DX by exact Q. change (X (plus q d)) with (X q + X d). change (X q) with (vx q). rewrite Eq, DX. ring.
    + right. rewrite Rmax_right in DX by lra. unfold Rmin in DX. destruct (Rle_dec (X olb) (X ilb)) as [Q'|Q'].
      * exists (plus olb d). split; [change (X (plus olb d)) with (X olb + X d); rewrite DX; ring|]. right. rewrite SOL, <- EB2, SOT. auto.
      * exists (plus ilb d). split; [change (X (plus ilb d)) with (X ilb + X d); rewrite DX; ring|]. left. rewrite SIL, <- EB1, SIT. auto.
Qed.

(** ** the reference points *)
Definition meets (a b d : @plane Rnum) (v : pt) : Prop := on_plane a v /\ on_plane b v /\ on_plane d v.
(* every corner of the body lies on its three planes: left / right, front / back, top; inner and outer *)
Definition corners (ps : @planesB Rnum) (thumbL_ : @plane Rnum) (p : @points Rnum) : Prop :=
  let a := pA ps in
  (meets (alnumIL a) (alnumIF a) (alnumIT a) (alnumILFp p) /\ meets (alnumOL a) (alnumOF a) (alnumOT a) (alnumOLFp p)) /\
  (meets (alnumIL a) (alnumIB ps) (alnumIT a) (alnumILBp p) /\ meets (alnumOL a) (alnumOB ps) (alnumOT a) (alnumOLBp p)) /\
  (meets (thumbIT a) (alnumIF a) (alnumIT a) (alnumIRFp p) /\ meets (thumbOT a) (alnumOF a) (alnumOT a) (alnumORFp p)) /\
  (meets (pivotIB a) (alnumIB ps) (alnumIT a) (alnumIRBp p) /\ meets (pivotOB a) (alnumOB ps) (alnumOT a) (alnumORBp p)) /\
  (meets (pinkyIR a) (pinkyIF ps) (pinkyIT a) (pinkyIRFp p) /\ meets (pinkyOR a) (pinkyOF ps) (pinkyOT a) (pinkyORFp p)) /\
  (meets (pinkyIR a) (alnumIB ps) (pinkyIT a) (pinkyIRBp p) /\ meets (pinkyOR a) (alnumOB ps) (pinkyOT a) (pinkyORBp p)) /\
  (meets thumbL_ (pinkyIF ps) (thumbIT a) (thumbILFp p) /\ meets thumbL_ (pinkyOF ps) (thumbOT a) (thumbOLFp p)) /\
  (meets (alnumIL a) (alnumIF a) (thumbIT a) (thumbILBp p) /\ meets (alnumOL a) (alnumOF a) (thumbOT a) (thumbOLBp p)) /\
  (meets (pivotIF a) (pinkyIF ps) (thumbIT a) (thumbIRFp p) /\ meets (pivotOF a) (pinkyOF ps) (thumbOT a) (thumbORFp p)).
Lemma bodyPoints_ok w tl ridge p : bodyPoints w tl ridge = Ok p -> corners (wPlanes w) tl p /\ ridgeIRF p = fst ridge /\ ridgeORF p = snd ridge /\
  (forall q, meets (alnumIL (pA (wPlanes w))) (alnumIB (wPlanes w)) (alnumIT (pA (wPlanes w))) q -> alnumILBp p = q) /\
  (forall q, meets (alnumOL (pA (wPlanes w))) (alnumOB (wPlanes w)) (alnumOT (pA (wPlanes w))) q -> alnumOLBp p = q).
Proof.
  unfold bodyPoints. cbv zeta. intros H.
  repeat (apply bind_ok in H; destruct H as (? & ? & H)).
  assert (UI : forall q, meets (alnumIL (pA (wPlanes w))) (alnumIB (wPlanes w)) (alnumIT (pA (wPlanes w))) q -> alnumILBp p = q).
  { intros q (Q1 & Q2 & Q3). apply Ok_inj in H. subst p. cbn [alnumILBp]. eapply meet_unique; [|exact Q1|exact Q2|exact Q3]; assumption. }
  assert (UO : forall q, meets (alnumOL (pA (wPlanes w))) (alnumOB (wPlanes w)) (alnumOT (pA (wPlanes w))) q -> alnumOLBp p = q).
  { intros q (Q1 & Q2 & Q3). apply Ok_inj in H. subst p. cbn [alnumOLBp]. eapply meet_unique; [|exact Q1|exact Q2|exact Q3]; assumption. }
  repeat match goal with E : pintersectPlanes _ _ _ = Ok _ |- _ => apply pintersectPlanes_sound in E end.
  apply Ok_inj in H. subst p. split; [|split; [reflexivity|split; [reflexivity|split; [exact UI|exact UO]]]]. clear UI UO. unfold corners, meets. cbv zeta.
  cbn [alnumILFp alnumILBp alnumIRFp alnumIRBp pinkyIRFp pinkyIRBp thumbILFp thumbILBp thumbIRFp alnumOLFp alnumOLBp alnumORFp alnumORBp pinkyORFp pinkyORBp thumbOLFp thumbOLBp thumbORFp].
  auto 20.
Qed.
Lemma ridge_ok y w thumbLine tl rI rO : ridgeFront c y w thumbLine tl = Ok (rI, rO) ->
  on_plane (thumbOT (pA (wPlanes w))) rO /\ 0 <= X rO /\ 0 <= X rI /\
  exists ob ib, meets (alnumOL (pA (wPlanes w))) (alnumOF (pA (wPlanes w))) (thumbOT (pA (wPlanes w))) ob /\
    meets (alnumIL (pA (wPlanes w))) (alnumIF (pA (wPlanes w))) (thumbIT (pA (wPlanes w))) ib /\ rI = plus rO (minus ib ob) /\
    (forall q, meets (alnumOL (pA (wPlanes w))) (alnumOF (pA (wPlanes w))) (thumbOT (pA (wPlanes w))) q -> ob = q) /\
    (forall q, meets (alnumIL (pA (wPlanes w))) (alnumIF (pA (wPlanes w))) (thumbIT (pA (wPlanes w))) q -> ib = q).
Proof.
  unfold ridgeFront. cbv zeta. intros H.
  apply bind_ok in H. destruct H as (tLB & _ & H). apply bind_ok in H. destruct H as (tLF & _ & H). apply bind_ok in H. destruct H as (ob & EO & H). apply bind_ok in H. destruct H as (ib & EI & H).
  apply bind_ok in H. destruct H as (s1 & _ & H). apply bind_ok in H. destruct H as (s2 & _ & H). apply bind_ok in H. destruct H as (si & _ & H). apply bind_ok in H. destruct H as (rf & ER & H).
  match type of H with (if ?b then _ else _) = _ => destruct b eqn:E end; [discriminate|]. injection H as <- <-.
  apply orb_false_iff in E. destruct E as (E1 & E2). apply Rltb_false in E1, E2. apply projectZ_sound in ER. destruct ER as (ER & _).
  split; [exact ER|]. split; [exact E1|]. split; [exact E2|]. exists ob, ib. split; [exact (pintersectPlanes_sound _ _ _ _ EO)|]. split; [exact (pintersectPlanes_sound _ _ _ _ EI)|]. split; [reflexivity|].
  split; intros q (Q1 & Q2 & Q3); [exact (meet_unique _ _ _ _ _ EO Q1 Q2 Q3)|exact (meet_unique _ _ _ _ _ EI Q1 Q2 Q3)].
Qed.
Lemma meets_shift v a b d p : meets a b d p -> meets (shift_plane v a) (shift_plane v b) (shift_plane v d) (plus p v).
Proof. intros (A & B & D). split; [|split]; apply on_rise; rewrite rise_shift; assumption. Qed.
Lemma left_shift d v ps ps' : X v = 0 -> (forall sel, In sel selA -> sel (pA ps') = shift_plane v (sel (pA ps))) -> alnumIB ps' = shift_plane v (alnumIB ps) -> alnumOB ps' = shift_plane v (alnumOB ps) ->
  left_of d ps -> left_of d ps'.
Proof.
  intros Hv SH E1 E2 (L1 & L2).
  assert (BACK : forall q p, on_plane (shift_plane v q) p -> on_plane q (minus p v)) by (intros q p Hp; apply on_rise; rewrite <- (rise_shift q v), <- plus_minus; exact Hp).
  split; intros p; [rewrite (SH alnumIL), (SH alnumIT), E1 by (unfold selA; cbn [In]; auto 20)|rewrite (SH alnumOL), (SH alnumOT), E2 by (unfold selA; cbn [In]; auto 20)]; intros Q1 Q2 Q3;
    [specialize (L1 _ (BACK _ _ Q1) (BACK _ _ Q2) (BACK _ _ Q3))|specialize (L2 _ (BACK _ _ Q1) (BACK _ _ Q2) (BACK _ _ Q3))]; unfold minus, P, X in *; cbn [vx] in *; rn; lra.
Qed.
Lemma touches_shift d v y ps ps' : X v = 0 -> (forall k, In k (lall y SideBoth) -> Built (kmatrix k)) -> (forall sel, In sel selA -> sel (pA ps') = shift_plane v (sel (pA ps))) -> alnumIB ps' = shift_plane v (alnumIB ps) -> alnumOB ps' = shift_plane v (alnumOB ps) ->
  touches_left d y ps -> touches_left d (mapAll (move v) y) ps'.
Proof.
  intros Hv BU SH E1 E2 T.
  assert (FWD : forall q p, on_plane q p -> on_plane (shift_plane v q) (plus p v)) by (intros q p Hp; apply on_rise; rewrite rise_shift; exact Hp).
  destruct T as [(p & Hp & Xp)|(p & Xp & Q)].
  - left. exists (plus p v). rewrite lall_all, (kbounds_map _ _ _ (carries_move v) BU). split; [apply in_map_iff; exists p; auto|]. change (X (plus p v)) with (X p + X v). lra.
  - right. exists (plus p v). split; [change (X (plus p v)) with (X p + X v); lra|].
    rewrite (SH alnumIL), (SH alnumIT), (SH alnumOL), (SH alnumOT), E1, E2 by (unfold selA; cbn [In]; auto 20).
    destruct Q as [(Q1 & Q2 & Q3)|(Q1 & Q2 & Q3)]; [left|right]; auto.
Qed.
Lemma shift_0 l : @shift_line origin l = l.
Proof. destruct l as [p d]. unfold shift_line. cbn [lpos ldir]. rewrite plus_0_r. reflexivity. Qed.
Lemma shift_bosses_0 b : shift_bosses origin b = b.
Proof. destruct b as (((b1, b2), b3), b4). cbn [shift_bosses]. rewrite !plus_0_r. reflexivity. Qed.

Theorem planZ_ok side y w tl pts y' ps' tl' pts' : wf_plane tl -> walled c side y w -> planZ c side y w tl pts = Ok (y', ps', tl', pts') ->
  exists h, let v := P 0 0 h in
  y' = mapAll (move v) y /\ walled c side y' (mkWalls ps' (wB w) (wF w) (wBoss w)) /\
  (forall sel, In sel selA -> sel (pA ps') = shift_plane v (sel (pA (wPlanes w)))) /\ alnumIB ps' = shift_plane v (alnumIB (wPlanes w)) /\ alnumOB ps' = shift_plane v (alnumOB (wPlanes w)) /\
  pinkyIF ps' = shift_plane v (pinkyIF (wPlanes w)) /\ pinkyOF ps' = shift_plane v (pinkyOF (wPlanes w)) /\ tl' = shift_plane v tl /\ pts' = mapPoints (fun p => plus p v) pts /\
  (forall k, In k (lall y' SideBoth) -> minRoofHeight c <= Z (kposition k)) /\ (exists k, In k (lall y' SideBoth) /\ Z (kposition k) = minRoofHeight c) /\
  (forall p, In p (allPoints pts') -> lipHeight c + innerChamfer c <= Z p) /\
  (forall p, In p (below (lall y' side)) -> floorInnerHeight c + floorMargin c - floorOuterHeight (bossCfg c) <= Z p).
Proof.
  intros WT W H. unfold planZ in H. cbv zeta in H. apply bind_ok in H. destruct H as (mz & EM & H).
  set (v := V (nZ 0) (nZ 0) (nsub (minRoofHeight c) mz)) in H. exists (minRoofHeight c - mz). cbv zeta. change (P 0 0 (minRoofHeight c - mz)) with v.
  apply bind_ok in H. destruct H as (ps & EP & H). apply bind_ok in H. destruct H as (tl1 & ET & H). apply bind_ok in H. destruct H as (mb & EB & H). apply bind_ok in H. destruct H as (mp & EPin & H).
  destruct (nltb (nsub (nsub mb (lipHeight c)) (innerChamfer c)) (nZ 0)) eqn:C1; [discriminate|].
  match type of H with (if ?b then _ else _) = _ => destruct b eqn:C2 end; [discriminate|]. injection H as <- <- <- <-.
  apply Rltb_false in C1, C2. rn.
  pose proof (walled_shift side y w v origin ps eq_refl eq_refl eq_refl W EP) as W'. rewrite !shift_0, shift_bosses_0 in W'.
  assert (W2 : walled c side (mapAll (move v) y) (mkWalls ps (wB w) (wF w) (wBoss w))) by (destruct w as [wp [b1 b2] [f1 f2] wb]; exact W').
  split; [reflexivity|]. split; [exact W2|].
  pose proof (mapPlanesB_ok _ _ _ EP) as (EA & EB1 & EB2 & EB3 & EB4). pose proof (mapPlanesA_ok _ _ _ EA) as SA. pose proof (t_wf _ _ _ _ (w_tented _ _ _ _ W)) as TW.
  destruct (w_wf _ _ _ _ W) as (V1 & V2 & V3 & V4). rewrite ptranslated_form in EB1, EB2, EB3, EB4, ET by assumption. apply Ok_inj in EB1, EB2, EB3, EB4, ET.
  split. { intros sel Hs. specialize (SA sel Hs). cbn beta in SA. rewrite ptranslated_form in SA by (apply TW, Hs). apply Ok_inj in SA. symmetry. exact SA. }
  split; [symmetry; exact EB1|]. split; [symmetry; exact EB2|]. split; [symmetry; exact EB3|]. split; [symmetry; exact EB4|]. split; [symmetry; exact ET|]. split; [reflexivity|].
  destruct (minList_spec _ _ EM) as (MI & MX). destruct (minList_spec _ _ EB) as (_ & BX). destruct (minList_spec _ _ EPin) as (_ & PX).
  assert (BU : forall k, In k (lall y SideBoth) -> Built (kmatrix k)) by (intros k Hk; apply (t_bounded _ _ _ _ (w_tented _ _ _ _ W) k Hk)).
  assert (KZ : forall k, In k (lall y SideBoth) -> Z (kposition (move v k)) = Z (kposition k) + (minRoofHeight c - mz)).
  { intros k Hk. destruct (carries_move v k (BU k Hk)) as (_ & Q & _). unfold kposition. rewrite Q. reflexivity. }
  split; [|split; [|split]].
  - intros k Hk. rewrite lall_all in Hk. apply in_map_iff in Hk. destruct Hk as (k0 & <- & Hk). rewrite (KZ k0 Hk). specialize (MX (Z (kposition k0)) (in_map (fun k => vz (kposition k)) _ _ Hk)). lra.
  - apply in_map_iff in MI. destruct MI as (k0 & E0 & Hk). exists (move v k0). rewrite lall_all. split; [apply in_map, Hk|]. rewrite (KZ k0 Hk). change (Z (kposition k0)) with (vz (kposition k0)). rewrite E0. ring.
  - intros p Hp. specialize (BX (Z p) (in_map vz _ _ Hp)). lra.
  - intros p Hp. specialize (PX (Z p) (in_map vz _ _ Hp)). lra.
Qed.

Record planned (side : LayoutModel.side) (p : @plan Rnum) : Prop := mkPlanned {
  n_walled : exists lB lF, walled c side (planLayout p) (mkWalls (planPlanes p) lB lF
    (bossPos (bossAlnumB (planBoss p)), bossPos (bossPinkyB (planBoss p)), bossPos (bossPinkyF (planBoss p)), bossPos (bossThumbF (planBoss p))));
  n_left : (forall q, In q (flat_map kbounds (lall (planLayout p) SideBoth)) -> 0 <= X q) /\ left_of (minRidgeWidth c / 2) (planPlanes p) /\ touches_left (minRidgeWidth c / 2) (planLayout p) (planPlanes p);
  n_touch : (exists q, In q (flat_map kbounds (lall (planLayout p) SideBoth)) /\ X q = 0) \/ X (alnumILBp (planPoints p)) = minRidgeWidth c / 2 \/ X (alnumOLBp (planPoints p)) = minRidgeWidth c / 2;
  n_corners : corners (planPlanes p) (planThumbL p) (planPoints p);
  n_ridge : on_plane (thumbOT (pA (planPlanes p))) (ridgeORF (planPoints p)) /\ on_plane (thumbIT (pA (planPlanes p))) (ridgeIRF (planPoints p)) /\
    0 <= X (ridgeORF (planPoints p)) /\ 0 <= X (ridgeIRF (planPoints p)) /\
    minus (ridgeIRF (planPoints p)) (ridgeORF (planPoints p)) = minus (thumbILBp (planPoints p)) (thumbOLBp (planPoints p));
  n_height : (forall k, In k (lall (planLayout p) SideBoth) -> minRoofHeight c <= Z (kposition k)) /\ (exists k, In k (lall (planLayout p) SideBoth) /\ Z (kposition k) = minRoofHeight c);
  n_lip : forall q, In q (allPoints (planPoints p)) -> lipHeight c + innerChamfer c <= Z q;
  n_pins : forall q, In q (below (lall (planLayout p) side)) -> floorInnerHeight c + floorMargin c - floorOuterHeight (bossCfg c) <= Z q }.
Lemma newBoss_pos q bc (pos pd : pt) wd rp b : @newBoss Rnum q bc pos pd wd rp = Ok b -> bossPos b = pos.
Proof.
  unfold newBoss. intros H. apply bind_ok in H. destruct H as (? & _ & H). apply bind_ok in H. destruct H as (h & _ & H). apply bind_ok in H. destruct H as (? & _ & H). apply bind_ok in H. destruct H as (t & _ & H).
  destruct h as (((h0, h1), h2), h3). destruct t as (((t0, t1), t2), t3). apply Ok_inj in H. subst b. reflexivity.
Qed.
Lemma corners_shift v ps ps' tl pts : (forall sel, In sel selA -> sel (pA ps') = shift_plane v (sel (pA ps))) -> alnumIB ps' = shift_plane v (alnumIB ps) -> alnumOB ps' = shift_plane v (alnumOB ps) ->
  pinkyIF ps' = shift_plane v (pinkyIF ps) -> pinkyOF ps' = shift_plane v (pinkyOF ps) -> corners ps tl pts -> corners ps' (shift_plane v tl) (mapPoints (fun p => plus p v) pts).
Proof.
  intros SH E1 E2 E3 E4 C. unfold corners in *. cbv zeta in *.
  rewrite (SH alnumIT), (SH alnumOT), (SH pivotIB), (SH pivotOB), (SH thumbIT), (SH thumbOT), (SH pivotIF), (SH pivotOF), (SH pinkyIT), (SH pinkyOT), (SH alnumIL), (SH alnumOL), (SH alnumIF), (SH alnumOF), (SH pinkyIR), (SH pinkyOR), E1, E2, E3, E4
    by (unfold selA; cbn [In]; auto 20).
  cbn [mapPoints alnumILFp alnumILBp alnumIRFp alnumIRBp pinkyIRFp pinkyIRBp thumbILFp thumbILBp thumbIRFp alnumOLFp alnumOLBp alnumORFp alnumORBp pinkyORFp pinkyORBp thumbOLFp thumbOLBp thumbORFp].
  destruct C as ((C1 & D1) & (C2 & D2) & (C3 & D3) & (C4 & D4) & (C5 & D5) & (C6 & D6) & (C7 & D7) & (C8 & D8) & (C9 & D9)).
  repeat match goal with |- _ /\ _ => split end; apply meets_shift; assumption.
Qed.
Theorem newPlan_ok fuel side p : 0 <= bossDiameter (bossCfg c) -> newPlan c fuel side = Ok p -> planned side p.
Proof.
  intros D0 H. unfold newPlan in H. apply bind_ok in H. destruct H as ([y1 ps1] & E1 & H). apply bind_ok in H. destruct H as ([y2 ps2] & E2 & H).
  apply bind_ok in H. destruct H as (w & E3 & H). cbn [fst] in H. apply bind_ok in H. destruct H as ([y3 w3] & E4 & H).
  apply bind_ok in H. destruct H as ([thumbLine tl] & E5 & H). cbn [fst snd] in H. apply bind_ok in H. destruct H as ([rI rO] & E6 & H). apply bind_ok in H. destruct H as (pts & E7 & H).
  apply bind_ok in H. destruct H as ([[[y ps] tl'] pts'] & E8 & H). apply bind_ok in H. destruct H as (bs & E9 & H). apply bind_ok in H. destruct H as (h & _ & H). apply Ok_inj in H. subst p.
  pose proof (planTent_ok c side y1 ps1 E1) as T1. pose proof (planTilt_ok c side y1 ps1 y2 ps2 T1 E2) as T2. destruct (planWalls_ok c fuel D0 side y2 ps2 w T2 E3) as (W & _).
  destruct (planX_ok side y2 w y3 w3 W E4) as (W3 & X0 & X1 & X2).
  assert (WT : wf_plane tl).
  { unfold thumbCorner in E5. cbv zeta in E5. repeat (apply bind_ok in E5; destruct E5 as (? & ? & E5)). injection E5 as _ <-. eapply newPlane_ok; eauto. }
  destruct (planZ_ok side y3 w3 tl pts y ps tl' pts' WT W3 E8) as (hz & EY & W4 & SH & S1 & S2 & S3 & S4 & ET & EPt & K1 & K2 & K3 & K4).
  set (v := P 0 0 hz) in *. destruct (bodyPoints_ok w3 tl (rI, rO) pts E7) as (C & CI & CO & UI & UO). cbn [fst snd] in CI, CO.
  destruct (ridge_ok y3 w3 thumbLine tl rI rO E6) as (R1 & R2 & R3 & ob & ib & R4 & R5 & R6 & U4 & U5).
  assert (BU : forall k, In k (lall y3 SideBoth) -> Built (kmatrix k)) by (intros k Hk; apply (t_bounded _ _ _ _ (w_tented _ _ _ _ W3) k Hk)).
  assert (EOB : ob = thumbOLBp pts /\ ib = thumbILBp pts).
  { destruct C as (_ & _ & _ & _ & _ & _ & _ & (C8 & D8) & _). split; [exact (U4 _ D8)|exact (U5 _ C8)]. }
  destruct EOB as (-> & ->).
  constructor; cbn [planLayout planPlanes planThumbL planPoints planBoss].
  - exists (wB w3), (wF w3). unfold planBosses in E9. destruct (wBoss w3) as (((b1, b2), b3), b4). cbv zeta in E9.
    apply bind_ok in E9. destruct E9 as (r1 & Q1 & E9). apply bind_ok in E9. destruct E9 as (r2 & Q2 & E9). apply bind_ok in E9. destruct E9 as (r3 & Q3 & E9). apply bind_ok in E9. destruct E9 as (r4 & Q4 & E9).
    apply Ok_inj in E9. subst bs. cbn [bossAlnumB bossPinkyB bossPinkyF bossThumbF]. apply newBoss_pos in Q1, Q2, Q3, Q4. rewrite Q1, Q2, Q3, Q4. exact W4.
  - subst y. split; [|split].
    + intros q Hq. rewrite lall_all, (kbounds_map _ _ _ (carries_move v) BU) in Hq. apply in_map_iff in Hq. destruct Hq as (q0 & <- & Hq). specialize (X0 q0 Hq). change (X (plus q0 v)) with (X q0 + 0). lra.
    + eapply (left_shift _ v); [reflexivity|exact SH|exact S1|exact S2|exact X1].
    + eapply (touches_shift _ v); [reflexivity|exact BU|exact SH|exact S1|exact S2|exact X2].
  - subst y. rewrite EPt. cbn [mapPoints alnumILBp alnumOLBp]. destruct X2 as [(q & Hq & Xq)|(q & Xq & [Q|Q])].
    + left. exists (plus q v). rewrite lall_all, (kbounds_map _ _ _ (carries_move v) BU). split; [apply in_map_iff; exists q; auto|]. change (X (plus q v)) with (X q + 0). lra.
    + right; left. rewrite (UI q Q). change (X (plus q v)) with (X q + 0). lra.
    + right; right. rewrite (UO q Q). change (X (plus q v)) with (X q + 0). lra.
  - rewrite ET, EPt. apply (corners_shift v (wPlanes w3)); assumption.
  - rewrite EPt. cbn [mapPoints ridgeORF ridgeIRF thumbILBp thumbOLBp]. rewrite CI, CO, (SH thumbOT), (SH thumbIT) by (unfold selA; cbn [In]; auto 20).
    split; [apply on_rise; rewrite rise_shift; exact R1|]. split.
    { apply on_rise. rewrite rise_shift. destruct (t_roofs _ _ _ _ (w_tented _ _ _ _ W3)) as (_ & TH & _).
      pose proof (TH rO) as Q1. pose proof (TH (thumbOLBp pts)) as Q2. destruct R4 as (_ & _ & R4). destruct R5 as (_ & _ & R5). apply on_rise in R1, R4, R5. rewrite R1 in Q1. rewrite R4 in Q2. rewrite R6.
      assert (LIN : forall pl (a b d : pt), rise pl (plus a (minus b d)) = rise pl a + rise pl b - rise pl d) by (intros pl a b d; unfold rise, inner, plus, minus, P, X, Y, Z; cbn [vx vy vz]; rn; ring).
      rewrite LIN, Q1, Q2, R5. ring. }
    split; [change (X (plus rO v)) with (X rO + 0); lra|]. split; [change (X (plus rI v)) with (X rI + 0); lra|].
    rewrite R6. assert (E : forall a b d e : R, a + (b - d) + e - (a + e) = b + e - (d + e)) by (intros; ring). apply pt_ext; apply E.
  - auto.
  - exact K3.
  - exact K4.
Qed.
End Fin.
