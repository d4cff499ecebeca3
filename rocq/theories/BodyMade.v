(** What the planner hands to the body: all keys share one factory, all bosses are made by newBoss; and the corners and
    raised edges of the body. *)
From Coq Require Import Reals Lra.
From Coq Require Import ZArith List Bool Lia Arith.
From Verif Require Import Num GeoModel EdgeModel EdgeSpec EdgeMesh ArcModel MeshModel MeshSpec MeshProof KeyModel LayoutModel LayoutSpec LayoutProof BossModel PlanModel BracketModel BumperModel BodyModel
  PartSpec ChainProof PartProof PalmProof PlanMove PlanTent PlanPath GeoSpec GeoMat GeoRigid GeoPlane GeoFig ArcSpec ArcProof P_Arc BodyChain BodyKeys.
Import ListNotations.
Open Scope Z_scope.

(** ** keys *)
Section Fac.
Context {N : Num}.
Variable fac : @factory N.
Definition shares (o : option (@key N)) : Prop := match o with Some k => kfactory k = fac | None => True end.
Lemma group_shares kc back row g : forall col, Forall shares (fingerGroup kc fac back row col g).
Proof.
  induction g as [|s g IH]; intros col; [constructor|]. cbn [fingerGroup]. constructor; [|apply IH]. unfold fingerKey. destruct s as [y|[|x [|y r]]]; reflexivity || exact I.
Qed.
Lemma row_shares kc back row gs : forall col, Forall (Forall shares) (fingerRow kc fac back row col gs).
Proof. induction gs as [|g gs IH]; intros col; [constructor|]. cbn [fingerRow]. constructor; [apply group_shares|apply IH]. Qed.
Lemma init_shares kc lc back : Forall (Forall (Forall shares)) (initFingers kc lc fac back).
Proof. unfold initFingers. apply Forall_forall. intros x I. apply in_map_iff in I. destruct I as (ir & <- & _). apply row_shares. Qed.
Lemma half_shares half g k : Forall (Forall (Forall shares)) half -> In k (flat_map (fun row => present (nth g row [])) half) -> kfactory k = fac.
Proof.
  intros H I. apply in_flat_map in I. destruct I as (row & Ir & I). unfold present in I. apply in_flat_map in I. destruct I as ([k'|] & Ik & I); [|destruct I]. destruct I as [<-|[]].
  pose proof (proj1 (Forall_forall _ _) H row Ir) as HR. destruct (nth_in_or_default g row []) as [J|D]; [|rewrite D in Ik; destruct Ik].
  pose proof (proj1 (Forall_forall _ _) HR _ J) as HG. exact (proj1 (Forall_forall _ _) HG _ Ik).
Qed.
Lemma thumb_shares kc ua : forall pivot target, (forall k, In k target -> kfactory k = fac) -> forall k, In k (thumbLoop kc fac ua pivot target) -> kfactory k = fac.
Proof.
  induction ua as [|[u a] r IH]; intros pivot target H k I; [exact (H k I)|]. cbn [thumbLoop] in I. refine (IH _ _ _ k I). intros k1 [<-|J]; [reflexivity|exact (H k1 J)].
Qed.
End Fac.
Lemma layout_shares {N : Num} kc lc (y : @layout N) : newLayout kc lc = Ok y -> exists fac, keyFactory kc = Ok fac /\ forall s k, In k (lall y s) -> kfactory k = fac.
Proof.
  intros H. unfold newLayout in H. grab H. exists x. split; [exact Q|]. destruct (negb _); [discriminate|]. destruct (negb _); [discriminate|]. cbv zeta in H.
  apply bind_ok in H; destruct H as (tl & HL & H). apply bind_ok in H; destruct H as (tr & HR & H). apply Ok_inj in H. subst y. cbn [fingersL fingersR] in *.
  pose proof (init_shares x kc lc true) as SL. pose proof (init_shares x kc lc false) as SR.
  assert (TL : forall k, In k tl -> kfactory k = x) by (unfold initThumb in HL; grabs HL; apply Ok_inj in HL; subst tl; apply thumb_shares; intros k0 []).
  assert (TR : forall k, In k tr -> kfactory k = x) by (unfold initThumb in HR; grabs HR; apply Ok_inj in HR; subst tr; apply thumb_shares; intros k0 []).
  assert (G : forall g s k, In k (lgroup (mkLayout (initFingers kc lc x true) (initFingers kc lc x false) tl tr) g s) -> kfactory k = x).
  { intros g s k I. unfold lgroup in I. apply in_flat_map in I. destruct I as (half & IH & I). unfold halves in IH. cbn [fingersL fingersR] in IH.
    assert (HH : Forall (Forall (Forall (shares x))) half) by (destruct s; cbn [In] in IH; repeat (destruct IH as [<-|IH]; [assumption|]); destruct IH). exact (half_shares x half g k HH I). }
  intros s k I. unfold lall in I. rewrite !in_app_iff in I. destruct I as [I|[I|I]]; [exact (G 0%nat s k I)|exact (G 1%nat s k I)|].
  unfold lthumb in I. cbn [thumbL thumbR] in I. destruct s; [apply TL, I|apply TR, I|]. apply in_app_iff in I. destruct I; auto.
Qed.
Lemma plan_shares c fuel sd pn : newPlan c fuel sd = Ok pn -> exists fac, keyFactory (keyCfg c) = Ok fac /\ forall s k, In k (lall (planLayout pn) s) -> kfactory k = fac.
Proof.
  intros H. destruct (newPlan_path c fuel sd pn H) as (y0 & off & ka & kp & d & M & L0 & _ & _ & _ & MV). destruct (layout_shares _ _ _ L0) as (fac & F & S).
  exists fac. split; [exact F|]. pose proof (newLayout_fresh _ _ _ L0) as FR. destruct MV as [_ _ (fa & CA & EA) (ft & CT & ET) (fp & CP & EP)].
  intros s k I. unfold lall in I. rewrite EA, ET, EP, !in_app_iff in I.
  assert (G : forall g f (ks : list key), carries g f -> (forall x, In x ks -> In x (lall y0 s)) -> In k (map f ks) -> kfactory k = fac).
  { intros g f ks C J Hk. apply in_map_iff in Hk. destruct Hk as (k0 & <- & Hk). pose proof (J k0 Hk) as A. destruct (FR k0 (lall_side y0 s k0 A)) as ((B & _) & _).
    destruct (C k0 B) as (_ & _ & E & _). rewrite E. exact (S s k0 A). }
  unfold lall in G. destruct I as [I|[I|I]]; [refine (G _ _ _ CA _ I)|refine (G _ _ _ CP _ I)|refine (G _ _ _ CT _ I)]; intros x Hx; rewrite !in_app_iff; auto.
Qed.
Lemma keys_bd c fac es (keys : list key) f : keyFactory c = Ok fac -> key_edges c = Ok es -> Forall (no_short_open (nQ 1 1000)) es -> is_weight f -> (forall k, In k keys -> kfactory k = fac) ->
  bd f (meshes (map ktriangles keys)) + loops f (map roofHoleI keys) + loops f (map roofHoleO keys) = 0.
Proof.
  intros F E S W. induction keys as [|k keys IH]; intros H; [reflexivity|]. cbn [map meshes bd]. unfold loops in *. cbn [fold_right].
  pose proof (IH (fun x I => H x (or_intror I))) as IH'. unfold ktriangles at 1, roofHoleI at 1, roofHoleO at 1. rewrite (H k (or_introl eq_refl)). cbn [bd].
  rewrite (key_bd c fac es (fun a b => f (transformed a (kmatrix k)) (transformed b (kmatrix k))) F E S (weight_map f (fun p => transformed p (kmatrix k)) W (keepsR (fun p => transformed p (kmatrix k))))).
  unfold etransformed. rewrite !loop_map. lia.
Qed.

(** ** bosses *)
Lemma plan_bosses {N : Num} c fuel sd pn : newPlan c fuel sd = Ok pn -> let bs := planBoss pn in
  made_boss (bossAlnumB bs) /\ made_boss (bossPinkyB bs) /\ made_boss (bossPinkyF bs) /\ made_boss (bossThumbF bs).
Proof.
  intros H. unfold newPlan in H. do 3 grab H. grab H. destruct x2 as (y & w). do 4 grab H. destruct x5 as (((y' & ps) & tl) & pts). grab H. grab H. apply Ok_inj in H. subst pn. cbn [planBoss].
  match goal with K : planBosses c w ps = Ok _ |- _ => rename K into B end.
  unfold planBosses in B. destruct (wBoss w) as (((b1 & b2) & b3) & b4). cbv zeta in B. grabs B. apply Ok_inj in B. subst x5. cbn [bossAlnumB bossPinkyB bossPinkyF bossThumbF].
  unfold made_boss. split; [|split; [|split]]; repeat eexists; eassumption.
Qed.
Lemma made_thread {N : Num} b (f : @weight N) : made_boss b -> is_weight f -> bd f (bThread b) = - loop f (threadHole b).
Proof. intros (q & c & pos & dir & wd & rp & H) W. exact (proj2 (boss_bd _ _ _ _ _ _ _ f H W)). Qed.

(** ** corners and raised edges *)
Open Scope R_scope.
Lemma arc_height h amax r s w c pts : eps <= r -> @arc2D Rnum (mkQuality h amax) r s w c = Ok pts -> h <= 2 * r.
Proof.
  intros Hr H. destruct (Rle_lt_dec h (2 * r)) as [L|L]; [exact L|]. rewrite (proj1 (proj2 (C46_degenerate h amax r s w c)) Hr L) in H. discriminate.
Qed.
Lemma corner_ends h amax r (a b c : pt) pts : 0 < h -> 0 < amax -> eps <= r -> cornerArc2D (mkQuality h amax) r a b c = Ok pts ->
  pts <> [] /\ Forall (fun p => Z p = 0) pts /\ (Y a = Y b -> Y (hd vzero pts) = Y b) /\ (Y c = Y b -> Y (last pts vzero) = Y b).
Proof.
  intros Hh Ha Hr H.
  assert (HH : h <= 2 * r).
  { unfold cornerArc2D in H. cbv zeta in H. do 6 grab H. exact (arc_height _ _ _ _ _ _ _ Hr H). }
  assert (HS : EdgeSpecR.side b a c <> 0) by (intros S; rewrite (C47_degenerate h amax r a b c S) in H; discriminate).
  destruct (C47_corner h amax r a b c Hr (conj Hh HH) Ha HS) as (pts' & m & k & E & L & K & (_ & S1) & (_ & S2) & _ & _ & A). rewrite H in E. apply Ok_inj in E. subst pts'.
  split; [destruct pts; [cbn in L; lia|discriminate]|]. split; [apply Forall_forall; intros p I; exact (proj1 (proj2 (A p I)))|].
  split; intros Q; [refine (eq_trans S1 _)|refine (eq_trans S2 _)]; rewrite Q; unfold Rdiv; ring.
Qed.
Lemma raised_xy (pl : @plane Rnum) l l' : raised pl l = Ok l' -> exy l' = exy l.
Proof.
  unfold raised, exy. intros H. apply mapM_ok in H. induction H as [|v w l l' E H IH]; [reflexivity|]. cbn [map]. rewrite IH. f_equal.
  destruct (projectZ_sound pl v w E) as (_ & EX & EY). unfold vxy. unfold X, Y in *. rewrite EX, EY. reflexivity.
Qed.
Lemma raised_len (pl : @plane Rnum) l l' : raised pl l = Ok l' -> length l' = length l.
Proof. intros H. apply raised_xy in H. apply (f_equal (@length _)) in H. unfold exy in H. rewrite !map_length in H. exact H. Qed.
Lemma lowered_xy (l : list pt) (z : R) : exy (etranslated l (V 0 0 z)) = exy l.
Proof. unfold exy, etranslated. rewrite map_map. apply map_ext. intros [x y u]. unfold vxy, vadd. cbn [vx vy vz]. rn. rewrite !Rplus_0_r. reflexivity. Qed.
Lemma lowered_one (p : pt) (z : R) : vxy (vadd p (V 0 0 z)) = vxy p.
Proof. destruct p as [x y u]. unfold vxy, vadd. cbn [vx vy vz]. rn. rewrite !Rplus_0_r. reflexivity. Qed.
Lemma level_xy (l : list pt) : Forall (fun p => Z p = 0) l -> exy l = l.
Proof. unfold exy. induction 1 as [|[x y z] l E H IH]; [reflexivity|]. cbn [map]. rewrite IH. f_equal. unfold vxy, Z in *. cbn [vx vy vz] in *. rewrite E. reflexivity. Qed.
Lemma chamfer_len {N : Num} : forall corner (prev next normal : @vec N) size l, cornerChamfer prev corner next normal size = Ok l -> length l = length corner.
Proof.
  induction corner as [|b r IH]; intros prev next normal size l H; cbn [cornerChamfer] in H; [apply Ok_inj in H; subst; reflexivity|].
  grab H. grab H. apply Ok_inj in H. subst l. cbn [length]. rewrite (IH _ _ _ _ _ Q0). reflexivity.
Qed.
Lemma chain_any {N : Num} (f : @weight N) l : l <> [] -> chain f l (hd vzero l) (last l vzero) (walk f l).
Proof. intros H. split; [exact H|]. split; [reflexivity|]. split; reflexivity. Qed.
Lemma pyidx_hd {N : Num} (l : list (@vec N)) a : pyidx l 0 = Ok a -> l <> [] /\ hd vzero l = a.
Proof. rewrite pyidx_first. destruct l; [discriminate|]. intros H. injection H as <-. split; [discriminate|reflexivity]. Qed.
Lemma pyidx_la {N : Num} (l : list (@vec N)) a : pyidx l (-1) = Ok a -> l <> [] /\ last l vzero = a.
Proof.
  rewrite pyidx_last. destruct (rev l) as [|y r] eqn:E; [discriminate|]. intros H. injection H as <-.
  rewrite <- (rev_involutive l), E. cbn [rev]. split; [destruct (rev r); discriminate|apply last_last].
Qed.
