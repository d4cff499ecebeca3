(** Property C87: the holes for the switches.  Read with SwitchSpec.v. *)
From Coq Require Import Reals Lra ZArith List Bool Permutation.
From Verif Require Import Num Calc GeoModel EdgeModel GeoSpec GeoMat MeshModel KeyModel SwitchSpec SwitchProof P_Layout.
Import ListNotations.
Open Scope R_scope.

(* the keys that can be made: a new key of some width, moved and turned in any way *)
Inductive made (c : @key_cfg Rnum) (fac : @factory Rnum) (units : R) : @key Rnum -> Prop :=
| made_new : made c fac units (newKey c fac units)
| made_translate k v : made c fac units k -> made c fac units (ktranslate k v)
| made_transform k m : made c fac units k -> made c fac units (ktransform k m).
Lemma made_parts c fac u k : made c fac u k -> kfactory k = fac /\ kCapBounds k = kCapBounds (newKey c fac u).
Proof. intros H. induction H as [|k v _ IH|k m _ IH]; [split; reflexivity|exact IH|exact IH]. Qed.

(* a switch body of the configured width and depth passes through the hole, whether the switch clips in at the front and back or
   sideways: no triangle of a key, in the place of the key, reaches into the opening; and the walls of the hole stay within the roof *)
Theorem C87_switch_passes : forall fill (c : @key_cfg Rnum) fac units k ts, keyFactory c = Ok fac -> made c fac units k ->
  0 <= entryChamfer c <= holeHeight c -> (forall n, clipNotch c = Some n -> 0 <= clipDepth n /\ 0 <= clipHeight n) ->
  eval fill (ktriangles k) = Ok ts ->
  forall t, In t ts -> exists t0, t = tmap (fun p => transformed p (kmatrix k)) t0 /\
    outside_opening (switchWidth c) (switchDepth c) t0 /\ all3 (within (- holeHeight c) 0) t0.
Proof.
  intros fill c fac units k ts F M He Hc E t Ht. unfold ktriangles in E. destruct (made_parts _ _ _ _ M) as (EF & _). rewrite EF in E.
  cbn [eval] in E. apply bind_ok in E. destruct E as (a & Ha & E). apply Ok_inj in E. subst ts.
  apply (factory_mesh c fill fac a F He Hc) in Ha. apply in_map_iff in Ht. destruct Ht as (t0 & <- & H0). rewrite Forall_forall in Ha. exists t0. split; [reflexivity|apply Ha, H0].
Qed.
Print Assumptions C87_switch_passes.

(* without a clip notch (or when it would be higher than the roof is thick) the opening at the underside is the rectangle of
   the switch, and the opening at the top is that rectangle with the entry chamfer at its corners *)
Theorem C87_plain_outline : forall (c : @key_cfg Rnum) fac, keyFactory c = Ok fac -> (forall n, clipNotch c = Some n -> holeHeight c <= clipHeight n) ->
  1 / 1000 <= switchWidth c -> 1 / 1000 <= switchDepth c -> 1 / 1000 <= entryChamfer c ->
  fHoleI fac = rectangle (switchWidth c) (switchDepth c) (- holeHeight c) /\ fHoleO fac = flared (switchWidth c) (switchDepth c) (entryChamfer c) 0.
Proof.
  intros c fac F Hn W D E.
  assert (C : hasClip c = None). { unfold hasClip. destruct (clipNotch c) as [n|]; [|reflexivity]. specialize (Hn n eq_refl). change (nltb (clipHeight n) (holeHeight c)) with (Rltb (clipHeight n) (holeHeight c)).
    destruct (Rltb _ _) eqn:L; [|reflexivity]. apply Rltb_true in L. lra. }
  assert (SW : isSideways c = false) by (unfold isSideways; rewrite C; reflexivity). pose proof (widths c) as (WW & DD). rewrite SW in WW, DD.
  unfold keyFactory, backMesh in F. rewrite C, SW in F. cbn [bind fst snd] in F. apply Ok_inj in F. subst fac. cbn [fHoleI fHoleO]. rewrite <- WW, <- DD. split.
  - apply (exit_plain c). rewrite DD. exact D.
  - apply (entry_out c); [rewrite WW; exact W|rewrite DD; exact D|exact E].
Qed.
Print Assumptions C87_plain_outline.
(* with a clip notch the opening at the underside has in addition two tapered notches of the configured width and depth, at
   front and back of the switch or, for sideways switches, at both sides *)
Theorem C87_notched_outline : forall (c : @key_cfg Rnum) fac n, keyFactory c = Ok fac -> clipNotch c = Some n -> clipHeight n < holeHeight c ->
  let w := if clipSideways n then switchDepth c else switchWidth c in let d := if clipSideways n then switchWidth c else switchDepth c in
  let narrower := clipDepth n * (sin (clipTaperAngle n) / cos (clipTaperAngle n)) in
  1 / 1000 <= w -> 1 / 1000 <= d -> 1 / 1000 <= entryChamfer c -> 1 / 1000 <= clipDepth n -> 1 / 1000 <= (w - clipWidth n) / 2 -> 1 / 1000 <= clipWidth n - 2 * narrower ->
  let turn := if clipSideways n then quarter_turn else (fun p => p) in
  fHoleI fac = map turn (notched w d (clipWidth n) (clipDepth n) narrower (- holeHeight c)) /\ fHoleO fac = map turn (flared w d (entryChamfer c) 0).
Proof.
  intros c fac n F CN L w d narrower W D E CD CW CT turn.
  assert (C : hasClip c = Some n). { unfold hasClip. rewrite CN. change (nltb (clipHeight n) (holeHeight c)) with (Rltb (clipHeight n) (holeHeight c)). apply Rltb_true in L. rewrite L. reflexivity. }
  assert (SW : isSideways c = clipSideways n) by (unfold isSideways; rewrite C; reflexivity). pose proof (widths c) as (WW & DD). rewrite SW in WW, DD. fold w in WW. fold d in DD.
  unfold keyFactory, backMesh in F. rewrite C, SW in F. apply bind_ok in F. destruct F as (be & HB & F). apply bind_ok in HB. destruct HB as (g & Hg & HB). cbv zeta in HB. apply Ok_inj in HB. subst be. cbn [fst snd] in F.
  assert (A1 := exit_notched c n g Hg). cbv zeta in A1. rewrite WW, DD in A1. specialize (A1 D CD CW CT).
  assert (A2 := entry_out c). cbv zeta in A2. rewrite WW, DD in A2. specialize (A2 W D E).
  unfold turn. destruct (clipSideways n); apply Ok_inj in F; subst fac; cbn [fHoleI fHoleO].
  - rewrite !quarters. split; (f_equal; [assumption]).
  - rewrite !map_id. split; assumption.
Qed.
Print Assumptions C87_notched_outline.
(* the room that is kept free for a key: at the top the switch with its margin and the cap of the given width with a full gap to
   its neighbours on all sides; at the underside the switch with its inner margin; and its pins *)
Theorem C87_keepout : forall (c : @key_cfg Rnum) fac units k, keyFactory c = Ok fac -> made c fac units k ->
  exists top under, boundsO k = map (fun p => transformed p (kmatrix k)) top /\ boundsI k = map (fun p => transformed p (kmatrix k)) under /\
    Permutation top (rectangle (switchWidth c + 2 * outerMargin c) (switchDepth c + 2 * outerMargin c) 0 ++
                     rectangle (units * columnPitch c + (columnPitch c - capWidth c)) (rowPitch c + (rowPitch c - capDepth c)) 0) /\
    Permutation under (rectangle (switchWidth c + 2 * innerMargin c) (switchDepth c + 2 * innerMargin c) (- holeHeight c) ++
                       rectangle (switchWidth c) (switchDepth c) (- innerHeight c - pinHeight c)).
Proof.
  intros c fac units k F M. destruct (made_parts _ _ _ _ M) as (EF & EC). exists (fBoundsO fac ++ kCapBounds (newKey c fac units)), (fBoundsI fac).
  split; [unfold boundsO; rewrite EF, EC; reflexivity|]. split; [unfold boundsI; rewrite EF; reflexivity|]. split; [|apply bounds_I, F].
  apply Permutation_app; [apply bounds_O, F|]. unfold newKey. cbn [kCapBounds].
  match goal with |- Permutation ?l ?r => replace l with [nth 1 r origin; nth 2 r origin; nth 3 r origin; nth 0 r origin] end.
  - unfold rectangle. cbn [nth]. apply (Permutation_app_comm [_; _; _] [_]).
  - unfold rectangle. cbn [nth]. rn. apply list_ext2. repeat (apply Forall2_cons); try apply Forall2_nil; unfold X, Y, Z, P; cbn [vx vy vz]; repeat split; field.
Qed.
Print Assumptions C87_keepout.

(* the default switch meets the hypotheses, also when it is turned sideways *)
Definition switch_real (sideways : bool) : @key_cfg Rnum := @mkKeyCfg Rnum (141 / 10) (139 / 10) 4 (33 / 10) 5 2 4 (4 / 10)
  (Some (@mkClip Rnum 8 (9 / 10) (14 / 10) (PI / 3) sideways)) 19 19 (182 / 10) (182 / 10).
Theorem C87_nonvacuous : forall sideways, exists fac, keyFactory (switch_real sideways) = Ok fac /\ made (switch_real sideways) fac 1 (newKey (switch_real sideways) fac 1) /\
  length (fHoleI fac) = 12%nat /\ length (fHoleO fac) = 8%nat.
Proof.
  intros s. set (c := switch_real s).
  assert (K : exists fac, keyFactory c = Ok fac).
  { unfold keyFactory, backMesh. destruct (hasClip c) as [n|] eqn:C.
    - assert (HN : n = @mkClip Rnum 8 (9 / 10) (14 / 10) (PI / 3) s). { unfold hasClip in C. cbn [clipNotch c switch_real] in C. destruct (nltb _ _); [congruence|discriminate]. }
      subst n. unfold clipEdgeG, pdiv. cbn [clipTaperAngle clipDepth]. change (@ncos Rnum (PI / 3)) with (cos (PI / 3)). rewrite cos_PI3. change (neqb (Num := Rnum) (1 / 2) (nZ 0)) with (Reqb (1 / 2) 0).
      assert (Reqb (1 / 2) 0 = false) as -> by (apply Reqb_false; lra). cbn [bind]. destruct (isSideways c); eexists; reflexivity.
    - cbn [bind]. destruct (isSideways c); eexists; reflexivity. }
  destruct K as (fac & F). exists fac. split; [exact F|]. split; [constructor|].
  assert (N : clipNotch c = Some (@mkClip Rnum 8 (9 / 10) (14 / 10) (PI / 3) s)) by reflexivity.
  assert (T : sin (PI / 3) / cos (PI / 3) = sqrt 3) by (rewrite sin_PI3, cos_PI3; field).
  assert (T3 : sqrt 3 <= 2). { rewrite <- (sqrt_Rsqr 2) by lra. apply sqrt_le_1_alt. unfold Rsqr. lra. }
  destruct (C87_notched_outline c fac _ F N) as (A & B); cbn [clipHeight clipSideways clipWidth clipDepth clipTaperAngle holeHeight switchDepth switchWidth entryChamfer c switch_real]; rewrite ?T; try lra; try (destruct s; lra).
  rewrite A, B, !map_length. split; reflexivity.
Qed.
Print Assumptions C87_nonvacuous.
