(** The faces of the floor lie in planes. *)
From Coq Require Import Reals Lra Psatz ZArith List Bool Lia Arith.
From Verif Require Import Num GeoModel GeoSpec GeoMat GeoRigid GeoPlane GeoCirc EdgeModel ArcModel ArcSpec ArcProof ArcShape MeshModel KeyModel LayoutModel BossModel PlanModel PlanMove BracketModel BumperModel BodyModel FloorModel FloorSpec PartProof BossProof CableProof PalmProof BodyFlat BodyMade BrSpec FlatSpec FlatProof FlatPlates FlatRest.
From Verif Require FloorClosed.
Import ListNotations.
Open Scope R_scope.

(** ** drawings in the ground plane stay there *)
Definition low_seg (s : @segment Rnum) : Prop := Z (sa s) = 0 /\ Z (sb s) = 0.
Definition lows (l : list (@segment Rnum)) : Prop := Forall low_seg l.
Lemma foldM_inv {A B} (Q : A -> Prop) (f : A -> B -> res A) l : (forall a x a', Q a -> In x l -> f a x = Ok a' -> Q a') -> forall a a', Q a -> foldM f a l = Ok a' -> Q a'.
Proof.
  induction l as [|x l IH]; intros S a a' H E; cbn [foldM] in E; [apply Ok_inj in E; subst; exact H|].
  apply bind_ok in E. destruct E as (b & E1 & E2). apply (IH (fun a0 x0 a1 K I => S a0 x0 a1 K (or_intror I)) b); [exact (S _ _ _ H (or_introl eq_refl) E1)|exact E2].
Qed.
Lemma nth_low l i : lows l -> low_seg (nth i l (@seg0 Rnum)).
Proof. intros H. destruct (nth_in_or_default i l (@seg0 Rnum)) as [I| ->]; [exact (proj1 (Forall_forall _ _) H _ I)|split; reflexivity]. Qed.
Lemma update_low (f : segment -> segment) l : (forall s, low_seg s -> low_seg (f s)) -> forall i, lows l -> lows (update i f l).
Proof. intros F. induction l as [|s l IH]; intros [|i] H; cbn [update]; [constructor|constructor|inversion H; subst; constructor; auto|inversion H; subst; constructor; [assumption|apply IH; assumption]]. Qed.
Lemma cross_low (s o : @segment Rnum) n p : sintersect2D s o n = Ok (Some p) -> Z p = 0.
Proof.
  unfold sintersect2D. cbv zeta. destruct (negb _); [|discriminate]. intros H. apply bind_ok in H. destruct H as (a & _ & H). destruct (_ || _); [|discriminate].
  apply bind_ok in H. destruct H as (b & _ & H). destruct (_ || _); [|discriminate]. apply Ok_inj in H. apply (f_equal (fun o => match o with Some v => Z v | None => 0 end)) in H. exact (eq_sym H).
Qed.
Lemma connect_low l l' : lows l -> connect l = Ok l' -> lows l'.
Proof.
  intros H E. unfold connect in E. revert E. apply (foldM_inv lows); [|exact H]. intros a i a' HA _ E. unfold connectStep in E. cbv zeta in E.
  apply bind_ok in E. destruct E as (m & EM & E). apply Ok_inj in E. subst a'.
  set (h := match i with O => _ | S j => j end) in *. destruct (nth_low a h HA) as [_ L1]. destruct (nth_low a i HA) as [L2 _].
  match goal with |- lows (update _ (fun s => mkSeg ?mm _) _) => assert (ZM : Z mm = 0) end.
  { destruct m as [p|]; [exact (cross_low _ _ _ _ EM)|]. match goal with |- Z (V _ _ (ndiv (vz (vadd ?u ?v)) _)) = 0 => change ((Z u + Z v) / 2 = 0); rewrite L1, L2; field end. }
  apply update_low; [|apply update_low; [|exact HA]]; intros s [S1 S2]; split; cbn [sa sb]; assumption.
Qed.
Lemma toSegments_low l b : zs 0 l -> lows (toSegments l b).
Proof.
  assert (K : forall m : list pt, zs 0 m -> lows (segs_open m)).
  { induction m as [|a m IH]; [constructor|]. destruct m as [|a' m]; [constructor|]. intros H. inversion H as [|? ? A H']. inversion H' as [|? ? A' H'']. cbn [segs_open]. constructor; [split; assumption|apply IH; exact H']. }
  intros H. unfold toSegments. destruct l as [|a l]; [constructor|]. apply Forall_app. split; [apply K; exact H|]. destruct b; [|constructor].
  constructor; [|constructor]. assert (I : In (last (a :: l) a) (a :: l)) by (destruct (exists_last (l := a :: l) ltac:(discriminate)) as (m & z & E); rewrite E, last_last; apply in_or_app; right; left; reflexivity).
  split; cbn [sa sb]; [exact (zs_in _ _ _ H I)|inversion H; assumption].
Qed.
Lemma offset_low (s s' : @segment Rnum) d : soffset2D s d = Ok s' -> low_seg s'.
Proof.
  unfold soffset2D. intros H. apply bind_ok in H. destruct H as (n & EN & H). cbv zeta in H. apply Ok_inj in H. subst s'.
  assert (ZN : Z n = 0). { unfold vnorm2D in EN. apply bind_ok in EN. destruct EN as (x & _ & EN). apply bind_ok in EN. destruct EN as (y & _ & EN). apply Ok_inj in EN. subst n. reflexivity. }
  split; cbn [sa sb]; change (0 + Z n * d = 0); rewrite ZN; ring.
Qed.
Lemma skipn_low n l : lows l -> lows (skipn n l).
Proof. intros H. rewrite <- (firstn_skipn n l) in H. apply Forall_app in H. apply H. Qed.
Lemma firstn_low n l : lows l -> lows (firstn n l).
Proof. intros H. rewrite <- (firstn_skipn n l) in H. apply Forall_app in H. apply H. Qed.
Lemma rotate_low n l : lows l -> lows (rotate n l).
Proof. intros H. apply Forall_app. split; [apply skipn_low|apply firstn_low]; exact H. Qed.
Lemma cut_low : forall fuel first done rest l, lows done -> lows rest -> cutLoops fuel first done rest = Ok l -> lows l.
Proof.
  assert (FIN : forall done rest l, lows done -> lows rest -> Ok (rev done ++ rest) = Ok l -> lows l) by (intros done rest l D R E; apply Ok_inj in E; subst l; apply Forall_app; split; [apply Forall_rev; exact D|exact R]).
  induction fuel as [|fuel IH]; intros first done rest l D R E; cbn [cutLoops] in E; [exact (FIN _ _ _ D R E)|].
  destruct rest as [|s r]; [exact (FIN _ _ _ D R E)|]. inversion R as [|? ? HS R'].
  apply bind_ok in E. destruct E as (c & EC & E).
  assert (BC : match snd c with Some (pos, _, _) => Z pos = 0 | None => True end).
  { revert EC. apply (foldM_inv (fun st : nat * option (@vec Rnum * @num Rnum * nat) => match snd st with Some (pos, _, _) => Z pos = 0 | None => True end)); [|exact I].
    intros [k best] o [k' best'] Q _ E'. unfold cutStep in E'. apply bind_ok in E'. destruct E' as (m & EM & E'). apply Ok_inj in E'. apply pair_inj in E'. destruct E' as [_ <-]. cbn [snd] in *.
    destruct m as [p|]; [|exact Q]. apply cross_low in EM. destruct best as [[[b d] n]|]; [destruct (nltb _ _); assumption|exact EM]. }
  destruct (snd c) as [[[pos d] k]|]; [|apply (IH _ _ _ _ (Forall_cons _ HS D) R' E)].
  pose proof (skipn_low (S k) r R') as RK. destruct (skipn (S k) r) as [|s1 r1]; [discriminate|]. inversion RK as [|? ? S1 R1].
  apply (IH _ _ _ _) in E; [exact E| |]; constructor; try assumption; split; cbn [sa sb]; try exact BC; [apply HS|apply S1].
Qed.
Lemma offset_z edge d b l : zs 0 edge -> @naiveOffset2D Rnum edge d b = Ok l -> zs 0 l.
Proof.
  intros H E. unfold naiveOffset2D in E. destruct (nltb _ _); [apply Ok_inj in E; subst l; exact H|]. cbv zeta in E.
  apply bind_ok in E. destruct E as (o1 & E1 & E). apply bind_ok in E. destruct E as (o2 & E2 & E). apply bind_ok in E. destruct E as (o3 & E3 & E). apply bind_ok in E. destruct E as (i & _ & E).
  apply bind_ok in E. destruct E as (o4 & E4 & E). apply bind_ok in E. destruct E as (o5 & E5 & E). apply bind_ok in E. destruct E as (e0 & _ & E). apply bind_ok in E. destruct E as (m & _ & E). apply bind_ok in E. destruct E as (j & _ & E). apply Ok_inj in E. subst l.
  assert (L1 : lows o1). { apply mapM_ok in E1. clear - E1. induction E1 as [|s s' l l' HS E1 IH]; constructor; [exact (offset_low _ _ _ HS)|exact IH]. }
  assert (L2 : lows o2).
  { destruct b; [apply Ok_inj in E2; subst o2; exact L1|]. destruct (toSegments edge true) as [|s0 ss]; [discriminate|]. apply bind_ok in E2. destruct E2 as (s & ES & E2). apply Ok_inj in E2. subst o2.
    apply Forall_app. split; [|constructor; [exact (offset_low _ _ _ ES)|constructor]]. clear - L1. induction L1 as [|x l HX L1 IH]; [constructor|]. cbn [removelast]. destruct l; [constructor|constructor; assumption]. }
  pose proof (connect_low _ _ L2 E3) as L3. pose proof (cut_low _ _ _ _ _ (Forall_nil _) (rotate_low _ _ L3) E4) as L4.
  assert (L5 : lows o5). { refine (connect_low _ _ _ E5). apply Forall_forall. intros s I. apply filter_In in I. exact (proj1 (Forall_forall _ _) L4 s (proj1 I)). }
  apply Forall_map. eapply Forall_impl; [|exact (rotate_low j _ L5)]. intros s [A _]. exact A.
Qed.
Lemma corner_z q (r : R) (a b d : pt) l : @cornerArc2D Rnum q r a b d = Ok l -> zs 0 l.
Proof.
  unfold cornerArc2D. intros H. apply bind_ok in H. destruct H as (ad & _ & H). apply bind_ok in H. destruct H as (cd & _ & H). cbv zeta in H. do 3 (apply bind_ok in H; destruct H as (? & _ & H)).
  apply bind_ok in H. destruct H as (dir & ED & H). refine (arc_z _ _ _ _ _ _ _ H).
  unfold vnorm2D in ED. apply bind_ok in ED. destruct ED as (x' & _ & ED). apply bind_ok in ED. destruct ED as (y' & _ & ED). apply Ok_inj in ED. subst dir. match goal with |- Z (vadd _ (vscale _ ?k)) = 0 => change (0 + 0 * k = 0) end. ring.
Qed.

(** ** the hexagons *)
Section Hex.
Variable q : @quality Rnum.
Variable h : @hex_cfg Rnum.
Definition low_all (l : list (list pt)) : Prop := Forall (zs 0) l.
Lemma hexagon_z (x y : R) : zs 0 (hexagonAt h x y).
Proof. unfold hexagonAt. repeat (constructor; [reflexivity|]). constructor. Qed.
Lemma hexPt_z l i j : zs 0 l -> Z (@hexPt Rnum l i j) = 0.
Proof. intros H. unfold hexPt. set (k := Nat.modulo _ _). destruct (nth_in_or_default k l (@vzero Rnum)) as [I|E]; [exact (zs_in _ _ _ H I)|]. change (Z (nth k l (@vzero Rnum)) = 0). rewrite E. reflexivity. Qed.
Lemma hexAt_z edge segs x y l : hexAt h edge segs x y = Ok l -> low_all l.
Proof.
  unfold hexAt. cbv zeta. intros H. apply bind_ok in H. destruct H as (ds & _ & H). apply bind_ok in H. destruct H as (cd & _ & H). destruct (nleb _ _).
  - apply bind_ok in H. destruct H as (b & _ & H). apply Ok_inj in H. subst l. destruct b; [|constructor]. constructor; [apply hexagon_z|constructor].
  - apply bind_ok in H. destruct H as (ps & _ & H). apply bind_ok in H. destruct H as (best & EB & H). destruct (nleb _ _); [|apply Ok_inj in H; subst l; constructor].
    assert (BC : match snd best with Some ce => Z ce = 0 | None => True end).
    { revert EB. apply (foldM_inv (fun st : @num Rnum * option (@vec Rnum) => match snd st with Some ce => Z ce = 0 | None => True end)); [|exact I].
      intros st i st' Q _ E. unfold scaleStep in E. cbv zeta in E. apply bind_ok in E. destruct E as (b & _ & E). destruct b; [|apply Ok_inj in E; subst; exact Q].
      apply bind_ok in E. destruct E as (f1 & _ & E). apply bind_ok in E. destruct E as (f2 & _ & E). apply Ok_inj in E. subst st'. destruct (nltb _ _); [cbn [snd]; apply hexPt_z, hexagon_z|exact Q]. }
    destruct (snd best) as [ce|]; [|discriminate]. apply Ok_inj in H. subst l. constructor; [|constructor]. unfold escaled. apply (zs_map 0); [|apply hexagon_z].
    intros p ZP. match goal with |- Z (vadd (vscale (vsub _ _) ?k) _) = 0 => change ((Z p - Z ce) * k + Z ce = 0) end. rewrite ZP, BC. ring.
Qed.
Lemma hexRow_z edge segs lx : forall fuel x y l, hexRow h fuel edge segs lx x y = Ok l -> low_all l.
Proof.
  induction fuel as [|fuel IH]; intros x y l H; cbn [hexRow] in H; (destruct (nltb _ _) in H; [|apply Ok_inj in H; subst l; constructor]); [discriminate|].
  apply bind_ok in H. destruct H as (a & EA & H). apply bind_ok in H. destruct H as (b & EB & H). apply Ok_inj in H. subst l. apply Forall_app. split; [exact (hexAt_z _ _ _ _ _ EA)|exact (IH _ _ _ EB)].
Qed.
Lemma hexRows_z edge segs lx ly xs0 ys0 rf : forall fuel row x y l, hexRows h fuel rf edge segs lx ly xs0 ys0 row x y = Ok l -> low_all l.
Proof.
  induction fuel as [|fuel IH]; intros row x y l H; cbn [hexRows] in H; (destruct (nltb _ _) in H; [|apply Ok_inj in H; subst l; constructor]); [discriminate|].
  apply bind_ok in H. destruct H as (a & EA & H). cbv zeta in H. apply bind_ok in H. destruct H as (b & EB & H). apply Ok_inj in H. subst l. apply Forall_app. split; [exact (hexRow_z _ _ _ _ _ _ _ EA)|exact (IH _ _ _ _ EB)].
Qed.
Lemma hexGrid_z fuel edge l : hexGrid2D q h fuel edge = Ok l -> low_all l.
Proof.
  unfold hexGrid2D. intros H. apply bind_ok in H. destruct H as (hs & E & H).
  assert (A : low_all hs) by (unfold hexRaw in E; do 4 (apply bind_ok in E; destruct E as (? & _ & E)); exact (hexRows_z _ _ _ _ _ _ _ _ _ _ _ _ E)).
  destruct (nltb _ _); [|apply Ok_inj in H; subst l; exact A].
  apply mapM_ok in H. clear E. induction H as [|e e' l l' HE H IH]; [constructor|]. inversion A; subst. constructor; [|apply IH; assumption].
  unfold hexRound in HE. match type of HE with rmap _ ?m = _ => destruct m as [ll|] eqn:EM; [|discriminate] end. apply Ok_inj in HE. subst e'. apply mapM_ok in EM.
  clear - EM. induction EM as [|i p l l' HP EM IH]; [constructor|]. cbn [concat]. apply zs_app; [exact (corner_z _ _ _ _ _ _ HP)|exact IH].
Qed.
End Hex.

(** ** the brackets *)
Section Bracket.
Variable q : @quality Rnum.
Variable taper : option R.
Variable pmod : R -> R -> R.
Variable c : @bracket_cfg Rnum.
Let M : R := br_holeLength c + br_boreLength c.
Definition foot (p : pt) : Prop := X p = 0 \/ X p = M.
Definition lip_levels (a cc d e : pt) (l : list pt) : Prop := exists l0 l1 l2 l3, l = [l0; l1; l2; l3] /\ Z l0 = Z e /\ Z l1 = Z d /\ Z l2 = Z cc /\ Z l3 = Z a.
Lemma fwd_floor_faces (a b cc d e : pt) extra s r : flat a -> flat cc -> flat d -> flat e -> floorFwd q taper pmod c a b cc d e extra s = Ok r ->
  Forall face_x (faces (fbMesh r)) /\ flats (fbSplit r) /\ flats (fbHole r) /\ Forall foot (fbTaper r) /\ lip_levels a cc d e (fbLip r).
Proof.
  intros A C D E H. unfold floorFwd in H. cbv zeta in H.
  assert (TD : flat (V (nZ 0) (nsin (br_taperAngle c)) (ncos (br_taperAngle c)))) by reflexivity.
  apply bind_ok in H; destruct H as (lF & H1 & H). assert (F1 : flat_line lF) by fl.
  apply bind_ok in H; destruct H as (lB & H2 & H). assert (F2 : flat_line lB) by fl.
  apply bind_ok in H; destruct H as (lG & H3 & H). assert (F3 : flat_line lG) by fl.
  apply bind_ok in H; destruct H as (lT & H4 & H). assert (F4 : flat_line lT) by fl.
  apply bind_ok in H; destruct H as (lL & H5 & H). assert (F5 : flat_line lL) by fl.
  apply bind_ok in H; destruct H as (p1 & H6 & H). assert (G1 : flat p1) by fl.
  apply bind_ok in H; destruct H as (p2 & H7 & H). assert (G2 : flat p2) by fl.
  apply bind_ok in H; destruct H as (p3 & H8 & H). assert (G3 : flat p3) by fl.
  apply bind_ok in H; destruct H as (p4 & H9 & H). assert (G4 : flat p4) by fl.
  match type of H with (if ?x then _ else _) = _ => destruct x; [discriminate|] end.
  apply bind_ok in H; destruct H as (cF & H10 & H). assert (G5 : flats cF) by fl. apply bind_ok in H; destruct H as (cB & H11 & H). assert (G6 : flats cB) by fl.
  apply bind_ok in H; destruct H as (ae & _ & H). apply bind_ok in H; destruct H as (((hm & hl) & hr) & HS & H). apply screw_faces in HS; [|reflexivity]. destruct HS as (S1 & S2 & S3).
  fold M in S2. apply bind_ok in H; destruct H as (ae' & _ & H).
  set (arch := etranslated (collapsed _ mu) _) in *. assert (AF : flats arch) by (unfold arch; fl). clearbody arch.
  assert (EM : br_boreLength c + br_holeLength c = M) by (unfold M; ring).
  assert (XM : forall l : list pt, flats l -> xs M (etranslated l (V (nadd (br_boreLength c) (br_holeLength c)) (nZ 0) (nZ 0)))) by (intros l K; rewrite <- EM; apply (xs_shift _ _ K)).
  assert (XP : forall p : pt, flat p -> X (vadd p (V (nadd (br_boreLength c) (br_holeLength c)) (nZ 0) (nZ 0))) = M) by (intros p K; rewrite <- EM; apply (x_shift _ _ K)).
  set (mv := V (nadd (br_boreLength c) (br_holeLength c)) (nZ 0) (nZ 0)) in *.
  assert (ZM : forall p : pt, Z (vadd p mv) = Z p) by (intros p; change (Z p + 0 = Z p); ring).
  match type of H with (let '(_, _) := ?x in _) = _ => destruct x as (aL & aR) eqn:EA end.
  assert (AL : flats aL /\ xs M aR).
  { destruct (visClose ae' e); apply pair_inj in EA; destruct EA as [<- <-]; (split; [fl|]); [apply XM; exact AF|].
    apply xs_app; [apply XM; exact AF|]. apply xs_cons; [apply XP; exact D|]. apply xs_cons; [apply XP; exact E|apply xs_nil]. }
  destruct AL as (AL & AR). apply bind_ok in H; destruct H as (a0 & I0 & H). apply bind_ok in H; destruct H as (r0 & I1 & H). apply Ok_inj in H. subst r. cbn [fbMesh fbSplit fbHole fbTaper fbLip].
  split; [|split; [fl|split; [fl|split]]].
  - cbn [meshes faces app]. constructor; [|rewrite ?app_nil_r; exact S3]. exists M. cbn [fst snd]. split; [|constructor; [exact S2|constructor]].
    apply all_collapsed, XM. fl.
  - constructor; [left; exact (proj1 (Forall_forall _ _) AL _ (pyidx_in _ _ _ I0))|]. constructor; [right; exact (proj1 (Forall_forall _ _) AR _ (pyidx_in _ _ _ I1))|constructor].
  - do 4 eexists. split; [reflexivity|]. repeat split; apply ZM.
Qed.
Lemma floor_bracket_faces (a b cc d e : pt) s r : floorBracket q taper pmod c a b cc d e s = Ok r ->
  Forall face_x (faces (fbMesh r)) /\ flats (fbSplit r) /\ flats (fbHole r) /\ Forall foot (fbTaper r) /\ lip_levels a cc d e (fbLip r).
Proof.
  intros H. unfold floorBracket in H. cbv zeta in H. assert (YZ : forall p : pt, flat (vyz p)) by reflexivity. assert (MY : forall p : pt, flat p -> flat (vmirY p)) by (intros p K; exact K).
  assert (MYs : forall l : list pt, flats l -> flats (emirY l)) by (intros l K; apply Forall_map; exact K).
  destruct (nltb _ _).
  - apply bind_ok in H. destruct H as (r0 & H0 & H). apply Ok_inj in H. subst r. cbn [fbMesh fbSplit fbHole fbTaper fbLip].
    apply fwd_floor_faces in H0; try (apply MY, YZ). destruct H0 as (A & B & C & D & (l0 & l1 & l2 & l3 & E & Z0 & Z1 & Z2 & Z3)).
    split; [|split; [apply Forall_rev, MYs; exact B|split; [apply Forall_rev, MYs; exact C|split]]].
    + cbn [faces]. apply Forall_forall. intros f I. apply in_map_iff in I. destruct I as (f0 & <- & I). destruct (proj1 (Forall_forall _ _) A f0 I) as (m & Q1 & Q2). exists m. exact (mirrored_x f0 m Q1 Q2).
    + apply Forall_rev, Forall_map. exact D.
    + rewrite E. exists (vmirY l0), (vmirY l1), (vmirY l2), (vmirY l3). split; [reflexivity|]. split; [exact Z0|]. split; [exact Z1|]. split; [exact Z2|exact Z3].
  - apply fwd_floor_faces in H; try (apply YZ). exact H.
Qed.
End Bracket.

(** ** the bumpers *)
Section Bump.
Variable q : @quality Rnum.
Lemma bumper_levels (bc : @bumper_cfg Rnum) (h : R) (pos : pt) half b : newBumper q bc h pos half = Ok b -> faces (buMesh b) = [] /\ zs (- h) (buFloor b) /\ (X pos = 0 -> flats (buSplit b)).
Proof.
  intros H. unfold newBumper in H. cbv zeta in H. apply bind_ok in H. destruct H as (arc & EA & H).
  assert (ZA : zs 0 arc).
  { destruct half; [|apply arc_z in EA; [exact EA|reflexivity]]. match type of EA with rmap _ ?m = _ => destruct m as [l|] eqn:EM; [|discriminate] end. apply Ok_inj in EA. subst arc. apply zs_snapped. apply arc_z in EM; [exact EM|reflexivity]. }
  assert (ZG : zs (- h) (etranslated arc (vsub (vxy pos) (V (nZ 0) (nZ 0) h)))) by (apply (zs_shift 0); [exact ZA|change (0 + (0 - h) = - h); ring]).
  destruct half.
  - do 4 (let u := fresh "u" in let E := fresh "E" in apply bind_ok in H; destruct H as (u & E & H)). apply Ok_inj in H. subst b. cbn [buMesh buFloor buSplit]. split; [reflexivity|]. split; [exact ZG|]. intros XP.
    assert (XA : X (hd vzero arc) = 0 /\ X (last arc vzero) = 0 /\ arc <> []).
    { match type of EA with rmap _ ?m = _ => destruct m as [l|] eqn:EM; [|discriminate] end. apply Ok_inj in EA.
      assert (NA : arc <> []) by (intros ->; discriminate). assert (NL : l <> []) by (intros ->; subst arc; contradiction).
      assert (XL : X (hd vzero l) = 0 /\ X (last l vzero) = 0).
      { destruct (Rlt_le_dec (bu_diameter bc / 2) eps) as [L|L].
        - unfold arc2D in EM. match type of EM with (if ?x then _ else _) = _ => replace x with true in EM by (symmetry; apply Rltb_true; exact L) end. apply Ok_inj in EM. subst l. split; reflexivity.
        - pose proof PI_RGT_0 as PP. assert (HP : Rabs PI <= PI) by (rewrite Rabs_right; lra).
          destruct (arc_ends q _ _ _ vzero l (or_intror L) HP EM eq_refl NL) as [Q1 Q2]. rewrite Q1, Q2.
          assert (C0 : cos (- PI / 2) = 0) by (replace (- PI / 2) with (- (PI / 2)) by field; rewrite cos_neg; exact cos_PI2).
          assert (C1 : cos (- PI / 2 + PI) = 0) by (replace (- PI / 2 + PI) with (PI / 2) by field; exact cos_PI2).
          split; [change (0 + bu_diameter bc / 2 * cos (- PI / 2) = 0); rewrite C0; ring|change (0 + bu_diameter bc / 2 * cos (- PI / 2 + PI) = 0); rewrite C1; ring]. }
      assert (SN : forall p : pt, X p = 0 -> X (vsnapped p) = 0).
      { intros p K. change ((if @isZero Rnum (X p) then 0 else X p) = 0). destruct (@isZero Rnum (X p)); [reflexivity|exact K]. }
      split; [|split; [|exact NA]]; subst arc.
      - destruct l as [|p l]; [contradiction|]. exact (SN p (proj1 XL)).
      - destruct (exists_last NL) as (l' & z & ->). rewrite last_last in XL. unfold esnapped. rewrite map_app. cbn [map]. rewrite last_last. exact (SN z (proj2 XL)). }
    destruct XA as (X0 & X1 & NA).
    assert (FI : forall (v p : pt) i, X v = 0 -> (i = 0%Z \/ i = (-1)%Z) -> pyidx (etranslated arc v) i = Ok p -> X p = 0).
    { intros v p i XV [->| ->] K.
      - apply (hd_is _ _ vzero) in K. destruct arc as [|p0 arc]; [contradiction|]. subst p. change (X p0 + X v = 0). cbn [hd] in X0. rewrite X0, XV. ring.
      - apply (end_is _ _ vzero) in K. destruct (exists_last NA) as (l' & z & EL). rewrite EL in K, X1. rewrite last_last in X1. unfold etranslated in K. rewrite map_app in K. cbn [map] in K. rewrite last_last in K. subst p. change (X z + X v = 0). rewrite X1, XV. ring. }
    assert (XV : forall w : pt, X w = 0 -> X (vsub (vxy pos) w) = 0) by (intros w K; change (X pos - X w = 0); rewrite XP, K; ring).
    constructor; [|constructor; [|constructor; [|constructor; [|constructor]]]]; unfold flat; (eapply FI; [| |eassumption]); [apply XV; reflexivity|right; reflexivity|apply XV; reflexivity|right; reflexivity|apply XV; reflexivity|left; reflexivity|apply XV; reflexivity|left; reflexivity].
  - apply Ok_inj in H. subst b. cbn [buMesh buFloor buSplit]. split; [reflexivity|]. split; [exact ZG|]. intros _. constructor.
Qed.
End Bump.

(** ** the screw heads *)
Lemma head_levels bq (bc : @boss_cfg Rnum) pos d wd rp b : newBoss bq bc pos d wd rp = Ok b -> faces (bHead b) = [] /\ zs (- floorOuterHeight bc) (headHole b) /\ zs 0 (clearanceHole b).
Proof.
  intros H. unfold newBoss in H. apply bind_ok in H. destruct H as (w & _ & H). apply bind_ok in H. destruct H as (h & EH & H).
  apply bind_ok in H. destruct H as (tip & _ & H). apply bind_ok in H. destruct H as (t & _ & H). destruct h as (((h0 & h1) & h2) & h3). destruct t as (((t0 & t1) & t2) & t3). apply Ok_inj in H. subst b. cbn [bHead headHole clearanceHole].
  split; [reflexivity|]. unfold headArcs in EH. cbv zeta in EH. apply bind_ok in EH. destruct EH as (arc & EA & EH). apply bind_ok in EH. destruct EH as (k & _ & EH). apply Ok_inj in EH.
  apply arc_z in EA; [|reflexivity].
  assert (SC : forall (l : list pt) (s : R), zs 0 l -> zs 0 (@escaled Rnum l s vzero)).
  { intros l s K. apply (zs_map 0); [|exact K]. intros p ZP. match goal with |- Z (vadd (vscale (vsub _ _) ?k) _) = 0 => change ((Z p - 0) * k + 0 = 0) end. rewrite ZP. ring. }
  apply pair_inj in EH. destruct EH as [EH E3]. apply pair_inj in EH. destruct EH as [EH _]. apply pair_inj in EH. destruct EH as [E0 _]. rewrite <- E0, <- E3. split.
  - apply (zs_shift 0); [apply SC, SC; exact EA|]. change (0 + - floorOuterHeight bc = - floorOuterHeight bc). ring.
  - apply Forall_rev. apply (zs_shift 0); [apply SC, SC; exact EA|]. change (0 + 0 = 0). ring.
Qed.
Lemma plan_heads (pc : @plan_cfg Rnum) fuel sd pn : newPlan pc fuel sd = Ok pn -> let bs := planBoss pn in let h := - floorOuterHeight (bossCfg pc) in
  Forall (fun b => faces (bHead b) = [] /\ zs h (headHole b) /\ zs 0 (clearanceHole b))
    ([bossAlnumB bs; bossThumbF bs; bossPinkyB bs; bossPinkyF bs] ++ match planHitch_ pn with Some h => [bossHitchL h; bossHitchR h] | None => [] end).
Proof.
  intros H. unfold newPlan in H. do 3 grab H. grab H. destruct x2 as (y & w). do 4 grab H. destruct x5 as (((y' & ps) & tl) & pts). grab H.
  apply bind_ok in H. destruct H as (oh & HO & H). apply Ok_inj in H. subst pn. cbn [planBoss planHitch_]. cbv zeta. apply Forall_app. split.
  - match goal with K : planBosses pc w ps = Ok _ |- _ => rename K into B end.
    unfold planBosses in B. destruct (wBoss w) as (((b1 & b2) & b3) & b4). cbv zeta in B. grabs B. apply Ok_inj in B. subst x5. cbn [bossAlnumB bossPinkyB bossPinkyF bossThumbF].
    repeat (constructor; [eapply head_levels; eassumption|]). constructor.
  - destruct (palm pc) as [hc|]; [|apply Ok_inj in HO; subst oh; constructor]. apply bind_ok in HO. destruct HO as (h & EH & HO). apply Ok_inj in HO. subst oh.
    unfold planHitch in EH. cbv zeta in EH. grabs EH. apply Ok_inj in EH. subst h. cbn [bossHitchL bossHitchR]. repeat (constructor; [eapply head_levels; eassumption|]). constructor.
Qed.

(** ** the floor *)
Section Floor.
Variable q : @quality Rnum.
Variable taper : option R.
Variable pmod : R -> R -> R.
Variable c : @floor_cfg Rnum.
Let level : R := - fl_outerHeight c + fl_innerHeight c.
Lemma in_cut {A} (m : list A) p : In p (removelast m) -> In p m.
Proof. induction m as [|y m IH]; [intros I; exact I|]. cbn [removelast]. destruct m; [intros I; destruct I|]. intros I. destruct I as [->|I]; [left; reflexivity|right; apply IH; exact I]. Qed.
Lemma setEnds_in (l l' : list pt) (a b : pt) : setEnds l a b = Ok l' -> forall p, In p l' -> p = a \/ p = b \/ In p l.
Proof.
  unfold setEnds. destruct l as [|x l]; [discriminate|]. intros H p I. apply Ok_inj in H. subst l'. apply in_app_or in I. destruct I as [I|[I|[]]]; [|right; left; symmetry; exact I].
  pose proof (in_cut _ _ I) as K.
  destruct K as [->|K]; [left; reflexivity|right; right; right; exact K].
Qed.
Lemma zs_setEnds m (l l' : list pt) (a b : pt) : zs m l -> Z a = m -> Z b = m -> setEnds l a b = Ok l' -> zs m l'.
Proof. intros L A B H. apply Forall_forall. intros p I. destruct (setEnds_in _ _ _ _ H p I) as [->|[->|K]]; [exact A|exact B|exact (zs_in _ _ _ L K)]. Qed.
Lemma starts_x i (l : list (list pt)) v : Forall (fun e => forall p, pyidx e i = Ok p -> X p = 0) l -> mapM (fun e => pyidx e i) l = Ok v -> xs 0 v.
Proof. intros A H. apply mapM_ok in H. induction H as [|e p l l' HP H IH]; [constructor|]. inversion A; subst. constructor; [auto|apply IH; assumption]. Qed.
Lemma back_ends (l : list pt) i p : runs_back l -> (i = 0%Z \/ i = (-1)%Z) -> pyidx l i = Ok p -> X p = 0.
Proof.
  intros (a & m & b & -> & A & B & _) [->| ->] H.
  - apply (hd_is _ _ vzero) in H. cbn [hd] in H. subst p. exact A.
  - apply (end_is _ _ vzero) in H. change (a :: m ++ [b]) with ((a :: m) ++ [b]) in H. rewrite last_last in H. subst p. exact B.
Qed.
Lemma pyidx_last4 (l0 l1 l2 l3 p : pt) : (pyidx [l0; l1; l2; l3] (-1) = Ok p -> p = l3) /\ (pyidx [l0; l1; l2; l3] (-2) = Ok p -> p = l2) /\ (pyidx [l0; l1; l2; l3] (-3) = Ok p -> p = l1) /\ (pyidx [l0; l1; l2; l3] (-4) = Ok p -> p = l0).
Proof. repeat split; intros H; apply Ok_inj in H; symmetry; exact H. Qed.
(* the profile with the brackets in it *)
Lemma bracket_levels bd sd p0 p1 p2 p3 p4 p5 p6 f : Forall runs_back [p0; p1; p2; p3; p4; p5; p6] -> zs (fl_lipHeight c) p3 -> zs (fl_lipHeight c) p4 -> zs level p6 ->
  floorBrackets q taper pmod c bd sd [p0; p1; p2; p3; p4; p5; p6] = Ok f ->
  f0 f = p0 /\ f1 f = p1 /\ f2 f = p2 /\ zs (fl_lipHeight c) (f3 f) /\ zs (fl_lipHeight c) (f4 f) /\ zs level (f6 f) /\ xs 0 (foSplit f) /\ Forall (xs 0) (foHoles f) /\ Forall flat_face (faces (foMesh f)) /\
  match fl_bracket c with Some bc => Forall (foot bc) (foInner f) | None => foInner f = [] end.
Proof.
  intros RB Z3 Z4 Z6 H. unfold floorBrackets in H.
  assert (ST : forall i l v, (i = 0%Z \/ i = (-1)%Z) -> (forall e, In e l -> In e [p0; p1; p2; p3; p4; p5; p6]) -> mapM (fun e => pyidx e i) l = Ok v -> xs 0 v).
  { intros i l v HI HL. apply starts_x. apply Forall_forall. intros e I p. apply back_ends; [exact (proj1 (Forall_forall _ _) RB e (HL e I))|exact HI]. }
  destruct (fl_bracket c) as [bc|].
  - apply bind_ok in H; destruct H as (p60 & I1 & H). apply bind_ok in H; destruct H as (p6e & I2 & H). apply bind_ok in H; destruct H as (p50 & _ & H). apply bind_ok in H; destruct H as (p40 & I4 & H). apply bind_ok in H; destruct H as (p30 & I5 & H).
    apply bind_ok in H; destruct H as (bF & EF & H). apply bind_ok in H; destruct H as (p5e & _ & H). apply bind_ok in H; destruct H as (p4e & I6 & H). apply bind_ok in H; destruct H as (p3e & I7 & H). apply bind_ok in H; destruct H as (bB & EB & H).
    apply bind_ok in H; destruct H as (kF & _ & H). apply bind_ok in H; destruct H as (u1 & _ & H). apply bind_ok in H; destruct H as (u2 & _ & H).
    destruct (floor_bracket_faces _ _ _ _ _ _ _ _ _ _ _ EF) as (A1 & A2 & A3 & A4 & (a0 & a1 & a2 & a3 & LA & ZA0 & ZA1 & ZA2 & ZA3)).
    destruct (floor_bracket_faces _ _ _ _ _ _ _ _ _ _ _ EB) as (B1 & B2 & B3 & B4 & (b0 & b1 & b2 & b3 & LB & ZB0 & ZB1 & ZB2 & ZB3)).
    rewrite LA, LB in H.
    apply bind_ok in H; destruct H as (lF3 & J1 & H). apply bind_ok in H; destruct H as (lB3 & J2 & H). apply bind_ok in H; destruct H as (q6 & S6 & H).
    apply bind_ok in H; destruct H as (lF2 & _ & H). apply bind_ok in H; destruct H as (lB2 & _ & H). apply bind_ok in H; destruct H as (q5 & _ & H).
    apply bind_ok in H; destruct H as (lF1 & J3 & H). apply bind_ok in H; destruct H as (lB1 & J4 & H). apply bind_ok in H; destruct H as (q4 & S4 & H).
    apply bind_ok in H; destruct H as (lF0 & J5 & H). apply bind_ok in H; destruct H as (lB0 & J6 & H). apply bind_ok in H; destruct H as (q3 & S3 & H).
    apply bind_ok in H; destruct H as (ss & ES & H). apply bind_ok in H; destruct H as (es & EE & H). apply Ok_inj in H. subst f. cbn [f0 f1 f2 f3 f4 f6 foSplit foHoles foMesh foInner].
    apply (pyidx_last4 a0 a1 a2 a3) in J1, J3, J5. apply (pyidx_last4 b0 b1 b2 b3) in J2, J4, J6. subst lF3 lB3 lF1 lB1 lF0 lB0.
    pose proof (zs_in _ _ _ Z6 (pyidx_in _ _ _ I1)) as K1. pose proof (zs_in _ _ _ Z6 (pyidx_in _ _ _ I2)) as K2. pose proof (zs_in _ _ _ Z4 (pyidx_in _ _ _ I4)) as K4. pose proof (zs_in _ _ _ Z3 (pyidx_in _ _ _ I5)) as K5. pose proof (zs_in _ _ _ Z4 (pyidx_in _ _ _ I6)) as K6. pose proof (zs_in _ _ _ Z3 (pyidx_in _ _ _ I7)) as K7.
    split; [reflexivity|]. split; [reflexivity|]. split; [reflexivity|]. split; [apply (zs_setEnds _ _ _ _ _ Z3) in S3; [exact S3|congruence|congruence]|]. split; [apply (zs_setEnds _ _ _ _ _ Z4) in S4; [exact S4|congruence|congruence]|].
    split; [apply (zs_setEnds _ _ _ _ _ Z6) in S6; [exact S6|congruence|congruence]|]. split; [|split; [|split]].
    + apply xs_app; [apply (ST 0%Z _ _ (or_introl eq_refl)) in ES; [exact ES|]|apply xs_app; [exact A2|apply xs_app; [exact B2|apply (ST (-1)%Z _ _ (or_intror eq_refl)) in EE; [exact EE|]]]]; intros e I; cbn [In] in I |- *; tauto.
    + constructor; [exact A3|]. constructor; [exact B3|constructor].
    + cbn [faces]. apply Forall_app. split; (eapply Forall_impl; [exact face_x_flat|assumption]).
    + apply Forall_app. split; assumption.
  - apply bind_ok in H; destruct H as (ss & ES & H). apply bind_ok in H; destruct H as (es & EE & H). apply Ok_inj in H. subst f. cbn [f0 f1 f2 f3 f4 f6 foSplit foHoles foMesh foInner].
    split; [reflexivity|]. split; [reflexivity|]. split; [reflexivity|]. split; [exact Z3|]. split; [exact Z4|]. split; [exact Z6|]. split; [|split; [constructor|split; [constructor|reflexivity]]].
    apply xs_app; [apply (ST 0%Z _ _ (or_introl eq_refl)) in ES; [exact ES|]|apply (ST (-1)%Z _ _ (or_intror eq_refl)) in EE; [exact EE|]]; intros e I; cbn [In] in I |- *; tauto.
Qed.
Lemma bumper_parts pts p0 bh bs bf bm : floorBumpers q c pts p0 = Ok (bh, bs, bf, bm) -> runs_back p0 ->
  Forall (zs (- fl_outerHeight c)) bh /\ xs 0 bs /\ zs (- fl_outerHeight c) bf /\ faces bm = [].
Proof.
  intros H RB. unfold floorBumpers in H. destruct (fl_bumper c) as [bc|].
  - cbv zeta in H. apply bind_ok in H; destruct H as (rf & _ & H). apply bind_ok in H; destruct H as (bRF & E1 & H). apply bind_ok in H; destruct H as (rb & _ & H). apply bind_ok in H; destruct H as (bRB & E2 & H).
    apply bind_ok in H; destruct H as (a & IA & H). apply bind_ok in H; destruct H as (bLF & E3 & H). apply bind_ok in H; destruct H as (b & IB & H). apply bind_ok in H; destruct H as (bLB & E4 & H). apply Ok_inj in H.
    apply pair_inj in H. destruct H as [H <-]. apply pair_inj in H. destruct H as [H <-]. apply pair_inj in H. destruct H as [<- <-].
    apply bumper_levels in E1, E2, E3, E4; try assumption. destruct E1 as (M1 & F1 & _), E2 as (M2 & F2 & _), E3 as (M3 & F3 & S3), E4 as (M4 & F4 & S4).
    apply (back_ends _ _ _ RB (or_introl eq_refl)) in IA. apply (back_ends _ _ _ RB (or_intror eq_refl)) in IB.
    split; [constructor; [exact F1|constructor; [exact F2|constructor]]|]. split; [apply xs_app; [apply S4|apply S3]|split; [apply zs_app; assumption|]].
    + match goal with |- X (vsub b ?v) = 0 => change (X b - 0 = 0) end. rewrite IB. ring.
    + match goal with |- X (vadd a ?v) = 0 => change (X a + 0 = 0) end. rewrite IA. ring.
    + cbn [meshes faces]. rewrite M1, M2, M3, M4. reflexivity.
  - apply Ok_inj in H. apply pair_inj in H. destruct H as [H <-]. apply pair_inj in H. destruct H as [H <-]. apply pair_inj in H. destruct H as [<- <-]. repeat split; constructor.
Qed.
Lemma faces_strips (f : list pt -> mesh) l : (forall e, faces (f e) = []) -> faces (meshes (map f l)) = [].
Proof. intros H. induction l as [|e l IH]; [reflexivity|]. cbn [map meshes faces]. rewrite H, IH. reflexivity. Qed.
Lemma hex_levels fuel p6 hi ho hm : floorHex q c fuel p6 = Ok (hi, ho, hm) -> Forall (zs level) hi /\ Forall (zs (- fl_outerHeight c)) ho /\ faces hm = [].
Proof.
  unfold floorHex. intros H. destruct (fl_hex c) as [h|].
  - cbv zeta in H. apply bind_ok in H. destruct H as (bo & _ & H). apply bind_ok in H. destruct H as (hs & EH & H). apply Ok_inj in H. apply pair_inj in H. destruct H as [H <-]. apply pair_inj in H. destruct H as [<- <-].
    apply hexGrid_z in EH. split; [|split; [|apply faces_strips; reflexivity]].
    + apply Forall_map, Forall_map. eapply Forall_impl; [|exact EH]. intros e K. apply Forall_rev. apply (zs_shift 0); [exact K|]. change (0 + level = level). ring.
    + apply Forall_map. eapply Forall_impl; [|exact EH]. intros e K. apply (zs_shift 0); [exact K|]. change (0 + - fl_outerHeight c = - fl_outerHeight c). ring.
  - apply Ok_inj in H. apply pair_inj in H. destruct H as [H <-]. apply pair_inj in H. destruct H as [<- <-]. repeat split; constructor.
Qed.
(* the face whose outline passes the feet of the brackets *)
Definition level_but_feet (f : list pt * list (list pt)) : Prop :=
  exists bc, fl_bracket c = Some bc /\ forall p, In p (fst f ++ concat (snd f)) -> X p = 0 \/ X p = br_holeLength bc + br_boreLength bc \/ Z p = level.
Lemma floor_faces fuel pc pf sd pn bd fl : newPlan pc pf sd = Ok pn -> floorOuterHeight (bossCfg pc) = fl_outerHeight c -> zs 0 (outlineO bd) -> zs 0 (outlineI bd) ->
  newFloor q taper pmod c fuel pn bd = Ok fl -> Forall runs_back (flProfile fl) -> Forall (fun f => flat_face f \/ level_but_feet f) (faces (flMesh fl)).
Proof.
  intros HP HO ZO ZI H RB. pose proof (plan_heads _ _ _ _ HP) as HB. cbv zeta in HB. unfold newFloor in H.
  apply bind_ok in H; destruct H as (sk & Hsk & H). apply bind_ok in H; destruct H as (fo & Hfo & H). apply bind_ok in H; destruct H as (hx & Hhx & H). apply bind_ok in H; destruct H as (bu & Hbu & H). destruct hx as ((hexI & hexO) & hexM), bu as (((bh & bs) & bf) & bm). cbv zeta in H.
  match type of H with context[map bHead ?l] => set (bosses := l) in * end. clearbody bosses. rewrite HO in HB.
  do 4 (apply bind_ok in H; destruct H as (? & _ & H)). apply Ok_inj in H. subst fl. cbn [flMesh flProfile] in *.
  assert (SK : exists p0 p1 p2 p3 p4 p5 p6, sk = [p0; p1; p2; p3; p4; p5; p6] /\ zs (- fl_outerHeight c) p0 /\ zs 0 p1 /\ zs 0 p2 /\ zs (fl_lipHeight c) p3 /\ zs (fl_lipHeight c) p4 /\ zs level p6).
  { unfold floorSketch in Hsk. cbv zeta in Hsk. apply bind_ok in Hsk; destruct Hsk as (li & E1 & Hsk). apply bind_ok in Hsk; destruct Hsk as (lo & E2 & Hsk). apply bind_ok in Hsk; destruct Hsk as (ch & E3 & Hsk). apply Ok_inj in Hsk. subst sk.
    apply offset_z in E1, E2, E3; try exact ZI. do 7 eexists. split; [reflexivity|]. 
    split; [apply (zs_shift 0); [exact ZO|change (0 + - fl_outerHeight c = - fl_outerHeight c); ring]|]. split; [exact ZO|]. split; [exact E2|].
    split; [apply (zs_shift 0); [exact E2|change (0 + fl_lipHeight c = fl_lipHeight c); ring]|]. split; [apply (zs_shift 0); [exact E1|change (0 + fl_lipHeight c = fl_lipHeight c); ring]|].
    apply (zs_shift 0); [exact E3|change (0 + level = level); ring]. }
  destruct SK as (p0 & p1 & p2 & p3 & p4 & p5 & p6 & -> & Y0 & Y1 & Y2 & Y3 & Y4 & Y6).
  destruct (bracket_levels _ _ _ _ _ _ _ _ _ _ RB Y3 Y4 Y6 Hfo) as (F0 & F1 & F2 & F3 & F4 & F6 & FS & FH & FM & FI).
  rewrite F0 in Hbu. destruct (bumper_parts _ _ _ _ _ _ Hbu (Forall_inv RB)) as (U1 & U2 & U3 & U4). destruct (hex_levels _ _ _ _ _ Hhx) as (V1 & V2 & V3).
  apply all_meshes. apply Forall_app. split; [|apply Forall_app; split].
  - constructor; [|constructor; [|constructor; [|constructor]]]; [|rewrite V3; constructor|rewrite U4; constructor]. eapply Forall_impl; [|exact FM]. tauto.
  - apply Forall_map. eapply Forall_impl; [|exact HB]. cbv beta. intros b (K & _). rewrite K. constructor.
  - do 4 (constructor; [constructor|]). constructor; [|constructor; [|constructor; [|constructor; [|constructor; [|constructor]]]]]; cbn [faces]; (constructor; [|constructor]).
    + left. apply (in_face_x 0); [apply all_collapsed, xs_app; assumption|exact FH].
    + left. apply (in_face_z (- fl_outerHeight c)); [apply zs_app; [apply Forall_rev; rewrite F0; exact Y0|exact U3]|].
      apply Forall_app. split; [exact V2|]. apply Forall_app. split; [exact U1|]. apply Forall_map. eapply Forall_impl; [|exact HB]. cbv beta. tauto.
    + left. apply (in_face_z 0); [apply zs_app; [rewrite F1; exact Y1|apply Forall_rev; rewrite F2; exact Y2]|]. apply Forall_map. eapply Forall_impl; [|exact HB]. cbv beta. tauto.
    + left. apply (in_face_z (fl_lipHeight c)); [apply all_collapsed, zs_app; [exact F3|apply Forall_rev; exact F4]|constructor].
    + unfold level_but_feet. destruct (fl_bracket c) as [bc|] eqn:EB.
      * right. exists bc. split; [reflexivity|]. cbn [fst snd]. intros p I. apply in_app_or in I. destruct I as [I|I]; [apply in_app_or in I; destruct I as [I|I]|].
        -- destruct (proj1 (Forall_forall _ _) FI p I) as [K|K]; [left; exact K|right; left; exact K].
        -- right; right. exact (zs_in _ _ _ F6 I).
        -- right; right. apply in_concat in I. destruct I as (e & IE & I). exact (zs_in _ _ _ (proj1 (Forall_forall _ _) V1 e IE) I).
      * left. rewrite FI. apply (in_face_z level); [exact F6|exact V1].
Qed.
End Floor.
