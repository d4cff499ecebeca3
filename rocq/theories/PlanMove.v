(** Moving keys and planes together. *)
From Coq Require Import Reals Lra Psatz List Bool ZArith Lia.
From Verif Require Import Num GeoModel GeoSpec GeoMat GeoRigid GeoPlane GeoIso EdgeModel ArcModel
  KeyModel LayoutModel LayoutSpec LayoutProof BossModel PlanModel HullSpec PlanSpec WallProof.
Import ListNotations.
Open Scope R_scope.

(** ** layout maps, for every kind of number *)
Section Maps.
Context {N : Num}.
Implicit Types (y : @layout N) (f : @key N -> @key N).
Lemma combine_seq_nth {A B} (h : nat * A -> B) (d : B) (da : A) (l : list A) : forall a i, (i < length l)%nat ->
  nth i (map h (combine (seq a (length l)) l)) d = h ((a + i)%nat, nth i l da).
Proof.
  induction l as [|x l IH]; intros a i Hi; [cbn in Hi; lia|]. cbn [length seq combine map]. destruct i as [|i].
  - rewrite Nat.add_0_r. reflexivity.
  - cbn [nth]. rewrite IH by (cbn in Hi; lia). f_equal. f_equal. lia.
Qed.
Lemma row_nth g g' f (row : list (list (option key))) :
  nth g' (map (fun ig => if Nat.eqb (fst ig) g then map (option_map f) (snd ig) else snd ig) (combine (seq 0 (length row)) row)) [] =
  if Nat.eqb g' g then map (option_map f) (nth g' row []) else nth g' row [].
Proof.
  destruct (Nat.lt_ge_cases g' (length row)) as [L|L].
  - rewrite (combine_seq_nth _ [] []) by exact L. reflexivity.
  - rewrite !nth_overflow; [destruct (Nat.eqb g' g); reflexivity|exact L|]. rewrite map_length, combine_length, seq_length. lia.
Qed.
Lemma present_map f l : present (map (option_map f) l) = map f (present l).
Proof. induction l as [|[k|] l IH]; [reflexivity| |exact IH]. cbn. f_equal. exact IH. Qed.
Lemma half_group g g' f (half : list (list (list (option key)))) :
  flat_map (fun row => present (nth g' row [])) (mapHalf g f half) =
  if Nat.eqb g' g then map f (flat_map (fun row => present (nth g' row [])) half) else flat_map (fun row => present (nth g' row [])) half.
Proof.
  unfold mapHalf. induction half as [|row half IH]; [destruct (Nat.eqb g' g); reflexivity|]. cbn [map flat_map]. rewrite IH, row_nth.
  destruct (Nat.eqb g' g); [rewrite present_map, map_app; reflexivity|reflexivity].
Qed.
Lemma halves_map g f y s : halves (mapFingers g f y) s = map (mapHalf g f) (halves y s).
Proof. destruct s; reflexivity. Qed.
Lemma lgroup_map g g' f y s : lgroup (mapFingers g f y) g' s = if Nat.eqb g' g then map f (lgroup y g' s) else lgroup y g' s.
Proof.
  unfold lgroup. rewrite halves_map. induction (halves y s) as [|h hs IH]; [destruct (Nat.eqb g' g); reflexivity|]. cbn [map flat_map]. rewrite IH, half_group.
  destruct (Nat.eqb g' g); [rewrite map_app; reflexivity|reflexivity].
Qed.
Lemma lgroup_thumb g f y s : lgroup (mapThumb f y) g s = lgroup y g s. Proof. destruct s; reflexivity. Qed.
Lemma lthumb_thumb f y s : lthumb (mapThumb f y) s = map f (lthumb y s).
Proof. destruct s; cbn [lthumb mapThumb thumbL thumbR]; rewrite ?map_app; reflexivity. Qed.
Lemma lthumb_fingers g f y s : lthumb (mapFingers g f y) s = lthumb y s. Proof. destruct s; reflexivity. Qed.
Lemma alnum_all f y s : alnum (mapAll f y) s = map f (alnum y s).
Proof. unfold alnum, mapAll. rewrite lgroup_thumb, !lgroup_map. reflexivity. Qed.
Lemma pinky_all f y s : pinky (mapAll f y) s = map f (pinky y s).
Proof. unfold pinky, mapAll. rewrite lgroup_thumb, !lgroup_map. reflexivity. Qed.
Lemma thumb_all f y s : lthumb (mapAll f y) s = map f (lthumb y s).
Proof. unfold mapAll. rewrite lthumb_thumb, !lthumb_fingers. reflexivity. Qed.
Lemma lall_all f y s : lall (mapAll f y) s = map f (lall y s).
Proof. unfold lall. rewrite alnum_all, pinky_all, thumb_all, !map_app. reflexivity. Qed.

(** the keys found per column are keys of the layout *)
Lemma pyidx_in {A} (l : list A) i x : pyidx l i = Ok x -> In x l.
Proof.
  unfold pyidx. cbv zeta. destruct (Z.ltb (if (i <? 0)%Z then _ else i) 0); [discriminate|].
  destruct (nth_error l _) eqn:E; [|discriminate]. intros H. injection H as <-. eapply nth_error_In; eauto.
Qed.
Lemma mapM_in {A B} (h : A -> res B) l bs b : mapM h l = Ok bs -> In b bs -> exists a, In a l /\ h a = Ok b.
Proof.
  revert bs. induction l as [|x l IH]; intros bs H Hb; cbn [mapM] in H; [injection H as <-; destruct Hb|].
  apply bind_ok in H. destruct H as (z & Hz & H). apply bind_ok in H. destruct H as (zs & Hzs & H). injection H as <-.
  destruct Hb as [<-|Hb]; [exists x; split; [left; reflexivity|exact Hz]|]. destruct (IH zs Hzs Hb) as (a & Ha & E). exists a. split; [right; exact Ha|exact E].
Qed.
Lemma lcol_in y g i s ks k : lcol y g i s = Ok ks -> In k ks -> In k (lgroup y g s).
Proof.
  unfold lcol. intros H Hk. apply bind_ok in H. destruct H as (hs & H & E). injection E as <-.
  apply in_concat in Hk. destruct Hk as (l & Hl & Hk). destruct (mapM_in _ _ _ _ H Hl) as (half & Hh & E).
  apply bind_ok in E. destruct E as (os & Ho & E). injection E as <-.
  unfold present in Hk. apply in_flat_map in Hk. destruct Hk as ([k'|] & Hk' & Q); [|destruct Q]. destruct Q as [<-|[]].
  destruct (mapM_in _ _ _ _ Ho Hk') as (row & Hr & E). apply pyidx_in in E.
  unfold lgroup. apply in_flat_map. exists half. split; [exact Hh|]. apply in_flat_map. exists row. split; [exact Hr|].
  unfold present. apply in_flat_map. exists (Some k'). split; [exact E|left; reflexivity].
Qed.
Lemma lperCol_in y g i s ks k : lperCol y g i s = Ok ks -> In k ks -> In k (lgroup y g s).
Proof.
  unfold lperCol. intros H Hk. apply bind_ok in H. destruct H as (hs & H & E). injection E as <-.
  apply in_concat in Hk. destruct Hk as (l & Hl & Hk). destruct (mapM_in _ _ _ _ H Hl) as (half & Hh & E).
  apply bind_ok in E. destruct E as (first & _ & E). destruct (mapM_in _ _ _ _ E Hk) as (col & _ & Q).
  apply bind_ok in Q. destruct Q as (ks' & H1 & H2). eapply lcol_in; [exact H1|]. eapply pyidx_in; eauto.
Qed.
Lemma lall_side y s k : In k (lall y s) -> In k (lall y SideBoth).
Proof.
  unfold lall, alnum, pinky. rewrite !in_app_iff. rewrite !lgroup_both, !in_app_iff. destruct s; cbn [lthumb]; rewrite ?lgroup_both, ?in_app_iff; tauto.
Qed.
Lemma group_side y g s k : In k (lgroup y g s) -> In k (lgroup y g SideBoth).
Proof. rewrite lgroup_both, in_app_iff. destruct s; rewrite ?lgroup_both, ?in_app_iff; tauto. Qed.

Definition selA : list (@planesA N -> @plane N) :=
  [alnumIT; alnumOT; pivotIB; pivotOB; thumbIT; thumbOT; pivotIF; pivotOF; pinkyIT; pinkyOT; alnumIL; alnumOL; alnumIF; alnumOF; pinkyIR; pinkyOR].
Lemma mapPlanesA_ok F a a' : mapPlanesA F a = Ok a' -> forall sel, In sel selA -> F (sel a) = Ok (sel a').
Proof.
  unfold mapPlanesA. intros H.
  repeat (apply bind_ok in H; destruct H as (? & ? & H)). injection H as <-.
  intros sel Hs. unfold selA in Hs. cbn [In] in Hs. repeat (destruct Hs as [<-|Hs]; [assumption|]). destruct Hs.
Qed.
Lemma mapPlanesB_ok F b b' : mapPlanesB F b = Ok b' -> mapPlanesA F (pA b) = Ok (pA b') /\ F (alnumIB b) = Ok (alnumIB b') /\ F (alnumOB b) = Ok (alnumOB b') /\
  F (pinkyIF b) = Ok (pinkyIF b') /\ F (pinkyOF b) = Ok (pinkyOF b').
Proof.
  unfold mapPlanesB. intros H. repeat (apply bind_ok in H; destruct H as (? & ? & H)). injection H as <-. cbn. auto.
Qed.
End Maps.

(** ** rigid motions of keys and planes *)
Definition bounded (k : @key Rnum) : Prop := Built (kmatrix k) /\ (2 <= length (boundsI k))%nat /\ (2 <= length (boundsO k))%nat.
Definition carries (g : pt -> pt) (f : @key Rnum -> @key Rnum) : Prop := forall k, Built (kmatrix k) ->
  Built (kmatrix (f k)) /\ (forall q, transformed q (kmatrix (f k)) = g (transformed q (kmatrix k))) /\ kfactory (f k) = kfactory k /\ kCapBounds (f k) = kCapBounds k.
Definition keeps (g : pt -> pt) (F : @plane Rnum -> res (@plane Rnum)) : Prop := exists h : pt -> pt, forall pl, wf_plane pl ->
  exists pl', F pl = Ok pl' /\ wf_plane pl' /\ (forall v, rise pl' (g v) = rise pl v) /\ ppos pl' = g (ppos pl) /\ pnormal pl' = h (pnormal pl).
Lemma carries_move v : carries (fun p => plus p v) (move v).
Proof.
  intros k B. unfold move, ktranslate. cbn [kmatrix kfactory kCapBounds]. split; [apply B_tra, B|]. split; [|split; reflexivity].
  intros q. apply app_tra, built_affine, B.
Qed.
Lemma carries_turn M : Built M -> carries (fun p => transformed p M) (turnKey M).
Proof.
  intros BM k B. unfold turnKey, ktransform. cbn [kmatrix kfactory kCapBounds]. split; [apply B_mul; assumption|]. split; [|split; reflexivity].
  intros q. apply transformed_mul, built_affine, B.
Qed.
Lemma keeps_move v : keeps (fun p => plus p v) (fun pl => ptranslated pl v).
Proof.
  exists (fun n => n). intros pl W. unfold ptranslated, newPlane. rewrite vnorm_of_unit by exact W. cbn [bind]. eexists. split; [reflexivity|]. split; [exact W|].
  split; [|split; reflexivity]. intros p. unfold rise. cbn [ppos pnormal]. f_equal. assert (E : forall a b c : R, a + b - (c + b) = a - c) by (intros; ring). apply pt_ext; apply E.
Qed.
Lemma keeps_turn M : Built M -> keeps (fun p => transformed p M) (fun pl => ptransformed pl M).
Proof.
  intros B. exists (lin M). intros pl W. destruct (ptransformed_spec pl M W B) as (pl' & E & W' & R). exists pl'. split; [exact E|]. split; [exact W'|]. split; [exact R|].
  unfold ptransformed in E. rewrite tnormal_lin in E.
  assert (U : unit_vec (lin M (pnormal pl))) by (unfold unit_vec; rewrite lin_inner by exact B; exact W).
  rewrite vnorm_of_unit in E by exact U. cbn [bind] in E. unfold newPlane in E. rewrite vnorm_of_unit in E by exact U. cbn [bind] in E. apply Ok_inj in E. subst pl'. split; reflexivity.
Qed.
Lemma keeps_ok g F pl pl' : keeps g F -> wf_plane pl -> F pl = Ok pl' -> wf_plane pl' /\ forall v, rise pl' (g v) = rise pl v.
Proof. intros (h & K) W E. destruct (K pl W) as (q & Eq & W' & R & _). rewrite E in Eq. apply Ok_inj in Eq. subst q. auto. Qed.
Lemma thick_iff d pi po : wf_plane po -> thick d pi po <-> pnormal pi = pnormal po /\ rise pi (ppos po) = d.
Proof.
  intros W. unfold thick. split.
  - intros H. split.
    + assert (D : forall v, inner v (pnormal pi) = inner v (pnormal po)).
      { intros v. pose proof (H (plus (ppos po) v)) as H1. pose proof (H (ppos po)) as H2. unfold rise, inner, minus, plus, P, X, Y, Z in *. cbn [vx vy vz] in *. rn. lra. }
      apply pt_ext; [pose proof (D (P 1 0 0)) as Q|pose proof (D (P 0 1 0)) as Q|pose proof (D (P 0 0 1)) as Q]; unfold inner, P, X, Y, Z in *; cbn [vx vy vz] in *; rn; lra.
    + rewrite H. unfold rise, inner, minus, P, X, Y, Z. rn. ring.
  - intros (E & D) v. unfold rise in *. rewrite E in *. rewrite <- D. unfold inner, minus, P, X, Y, Z. rn. ring.
Qed.
Lemma thick_moved g F d pi po pi' po' : keeps g F -> wf_plane pi -> wf_plane po -> F pi = Ok pi' -> F po = Ok po' -> thick d pi po -> thick d pi' po'.
Proof.
  intros (h & K) Wi Wo Ei Eo T. destruct (K pi Wi) as (q & Q1 & Q2 & Q3 & Q4 & Q5). rewrite Ei in Q1. apply Ok_inj in Q1. subst q.
  destruct (K po Wo) as (q & S1 & S2 & S3 & S4 & S5). rewrite Eo in S1. apply Ok_inj in S1. subst q.
  apply (thick_iff d pi po Wo) in T. destruct T as (T1 & T2). apply thick_iff; [exact S2|]. split; [congruence|]. rewrite S4, Q3. exact T2.
Qed.

Lemma carries_bounds g f k : carries g f -> Built (kmatrix k) -> boundsI (f k) = map g (boundsI k) /\ boundsO (f k) = map g (boundsO k).
Proof.
  intros C B. destruct (C k B) as (_ & T & E1 & E2). unfold boundsI, boundsO. rewrite E1, E2. unfold etransformed. rewrite !map_map. split; apply map_ext; intros q; apply T.
Qed.
Lemma carries_bounded g f k : carries g f -> bounded k -> bounded (f k).
Proof.
  intros C (B & L1 & L2). destruct (carries_bounds g f k C B) as (E1 & E2). split; [apply (C k B)|]. rewrite E1, E2, !map_length. split; assumption.
Qed.
Lemma below_map g f ks : carries g f -> (forall k, In k ks -> Built (kmatrix k)) -> below (map f ks) = map g (below ks) /\ above (map f ks) = map g (above ks).
Proof.
  intros C. unfold below, above. induction ks as [|k ks IH]; intros H; [split; reflexivity|]. cbn [map flat_map].
  destruct (IH (fun k Hk => H k (or_intror Hk))) as (E1 & E2). destruct (carries_bounds g f k C (H k (or_introl eq_refl))) as (F1 & F2).
  rewrite E1, E2, F1, F2, !map_app. split; reflexivity.
Qed.
Lemma inside_moved g F pl pl' ps : keeps g F -> wf_plane pl -> F pl = Ok pl' -> inside pl ps -> inside pl' (map g ps).
Proof.
  intros K W E I p Hp. apply in_map_iff in Hp. destruct Hp as (q & <- & Hq). destruct (keeps_ok g F pl pl' K W E) as (_ & R). rewrite R. apply I, Hq.
Qed.
Lemma outside_moved g F pl pl' ps : keeps g F -> wf_plane pl -> F pl = Ok pl' -> outside pl ps -> outside pl' (map g ps).
Proof.
  intros K W E I p Hp. apply in_map_iff in Hp. destruct Hp as (q & <- & Hq). destruct (keeps_ok g F pl pl' K W E) as (_ & R). rewrite R. apply I, Hq.
Qed.
Lemma sits_moved g f F pl pl' k : carries g f -> keeps g F -> wf_plane pl -> F pl = Ok pl' -> Built (kmatrix k) -> sits_on pl k -> sits_on pl' (f k).
Proof.
  intros C K W E B S q. destruct (C k B) as (_ & T & _). destruct (keeps_ok g F pl pl' K W E) as (_ & R). rewrite T, R. apply S.
Qed.
