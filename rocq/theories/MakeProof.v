(** Proofs about make.py: the pool, the files. *)
From Coq Require Import Ascii String ZArith List Bool Permutation Lia Arith.
From Verif Require Import Num GeoModel FaceModel FaceComb CfgModel CfgSpec StlModel StlProof MakeModel.
Import ListNotations.
Open Scope nat_scope.
Open Scope list_scope.

Lemma Forall2_imp {A B} (P Q : A -> B -> Prop) l m : (forall a b, P a b -> Q a b) -> Forall2 P l m -> Forall2 Q l m.
Proof. intros H F. induction F; constructor; auto. Qed.
(* lists equal at every position *)
Lemma nth_error_ext_len {T} (l m : list T) : length l = length m -> (forall j, j < length l -> nth_error l j = nth_error m j) -> l = m.
Proof.
  revert m. induction l as [|x l IH]; intros [|y m] L H; try discriminate; [reflexivity|].
  pose proof (H 0 ltac:(cbn; lia)) as H0. cbn in H0. injection H0 as ->. f_equal. apply IH; [cbn in L; lia|]. intros j Hj. apply (H (S j)). cbn. lia.
Qed.
Section Pool.
Context {A B : Type}.
Variable f : A -> res B.

Lemma chunksOf_spec size : 0 < size -> forall fuel (l : list A), length l <= fuel -> forall i,
  (i < length (chunksOf fuel size l) <-> i * size < length l) /\
  nth i (chunksOf fuel size l) [] = firstn size (skipn (i * size) l).
Proof.
  intros SZ. induction fuel as [|fuel IH]; intros l L i.
  - destruct l; [|cbn in L; lia]. cbn. rewrite skipn_nil, firstn_nil. split; [lia|destruct i; reflexivity].
  - destruct l as [|x l]; [cbn; rewrite skipn_nil, firstn_nil; split; [lia|destruct i; reflexivity]|].
    cbn [chunksOf]. set (xl := x :: l) in *. 
    assert (L2 : length (skipn size xl) <= fuel) by (rewrite skipn_length; lia).
    destruct i as [|i]; cbn [nth length].
    + split; [|reflexivity]. unfold xl. cbn. lia.
    + destruct (IH _ L2 i) as [I1 I2]. rewrite I2. split.
      * rewrite skipn_length in I1. nia.
      * replace (S i * size) with (size + i * size) by lia. f_equal. clearbody xl. clear. generalize (i * size) as k. intros k. revert xl. induction size as [|s IH]; intros xl; [reflexivity|].
        destruct xl; [rewrite !skipn_nil; reflexivity|]. cbn [skipn Nat.add]. apply IH.
Qed.
Lemma chunksize_pos threads n : 0 < threads -> 0 < n -> 0 < chunksize threads n.
Proof.
  intros T L. unfold chunksize. destruct (Nat.eqb_spec (n mod (threads * 4)) 0) as [E|E]; [|lia].
  pose proof (Nat.div_mod n (threads * 4) ltac:(lia)). destruct (n / (threads * 4)); lia.
Qed.
Lemma mapM_fail l e : mapM f l = Err e -> exists x, In x l /\ f x = Err e.
Proof.
  induction l as [|x l IH]; cbn; [discriminate|]. destruct (f x) as [y|e'] eqn:E; cbn.
  - destruct (mapM f l) as [ys|e''] eqn:E2; cbn; [discriminate|]. intros H. injection H as <-. destruct (IH eq_refl) as (z & Hz & Ez). eauto.
  - intros H. injection H as <-. eauto.
Qed.
Lemma mapM_app l1 l2 : mapM f (l1 ++ l2) = (a <- mapM f l1 ;; b <- mapM f l2 ;; Ok (a ++ b)).
Proof.
  induction l1 as [|x l1 IH]; cbn [app mapM]; [destruct (mapM f l2); reflexivity|]. rewrite IH. destruct (f x); [|reflexivity]. cbn [bind].
  destruct (mapM f l1); [|reflexivity]. cbn [bind]. destruct (mapM f l2); reflexivity.
Qed.
Lemma mapM_Forall2 l ys : mapM f l = Ok ys -> Forall2 (fun x y => f x = Ok y) l ys. Proof. apply mapM_ok. Qed.
Lemma mapM_slice l ys n k : mapM f l = Ok ys -> mapM f (firstn n (skipn k l)) = Ok (firstn n (skipn k ys)).
Proof.
  rewrite !mapM_ok. intros F. assert (G : Forall2 (fun x y => f x = Ok y) (skipn k l) (skipn k ys)).
  { revert k. induction F; intros [|k]; cbn; auto. }
  revert n. induction G; intros [|n]; cbn; constructor; auto.
Qed.
(* a failing element makes its chunk fail *)
Lemma in_chunk size (l : list A) (x : A) : 0 < size -> In x l -> exists i, i < length (chunksOf (length l) size l) /\ In x (nth i (chunksOf (length l) size l) []).
Proof.
  intros SZ H. apply (In_nth _ _ x) in H. destruct H as (j & Hj & E). exists (j / size).
  destruct (chunksOf_spec size SZ (length l) l (le_n _) (j / size)) as [C1 C2]. pose proof (Nat.div_mod j size ltac:(lia)) as DM. pose proof (Nat.mod_upper_bound j size ltac:(lia)) as MB.
  split; [apply C1; nia|]. rewrite C2.
  assert (K : nth (j mod size) (firstn size (skipn (j / size * size) l)) x = x).
  { rewrite <- E at 2. clear -MB DM Hj. 
    assert (G : forall (l : list A) m n d, m < n -> nth m (firstn n l) d = nth m l d).
    { induction l0 as [|y l0 IH]; intros m n d H; [rewrite firstn_nil; reflexivity|]. destruct n; [lia|]. destruct m; [reflexivity|]. cbn. apply IH. lia. }
    assert (G2 : forall (l : list A) m k d, nth m (skipn k l) d = nth (k + m) l d).
    { induction l0 as [|y l0 IH]; intros m k d; [rewrite skipn_nil, !nth_overflow by (cbn; lia); reflexivity|]. destruct k; [reflexivity|]. cbn. apply IH. }
    rewrite G, G2 by lia. f_equal. lia. }
  rewrite <- K at 1. apply nth_In. rewrite firstn_length, skipn_length. nia.
Qed.

Variable l : list A.
Variable size : nat.
Hypothesis SZ : 0 < size.
Notation tasks := (chunksOf (length l) size l).
(* no chunk fails: the values *)
Lemma run_ok ys : mapM f l = Ok ys -> forall d st, mrError st = None -> length (mrValue st) = length l ->
  (forall i, In i d -> i < length tasks) ->
  let st' := fold_left (mrSet f size tasks) d st in
  mrError st' = None /\ length (mrValue st') = length l /\
  forall j, j < length l -> (nth_error (mrValue st) j = nth_error (map Some ys) j \/ In (j / size) d) -> nth_error (mrValue st') j = nth_error (map Some ys) j.
Proof.
  intros M. pose proof (mapM_length f l ys M) as LY.
  induction d as [|i d IH]; intros st E L LT st'; cbn [fold_left] in st'.
  - subst st'. split; [exact E|]. split; [exact L|]. intros j Hj [H|[]]. exact H.
  - set (s1 := mrSet f size tasks st i). assert (Hi : i < length tasks) by (apply LT; left; reflexivity).
    destruct (chunksOf_spec size SZ (length l) l (le_n _) i) as [C1 C2]. apply C1 in Hi.
    assert (ES : s1 = mkMR (firstn (i * size) (mrValue st) ++ map Some (firstn size (skipn (i * size) ys)) ++ skipn ((i + 1) * size) (mrValue st)) None).
    { unfold s1, mrSet. rewrite C2, (mapM_slice l ys _ _ M), E. reflexivity. }
    assert (L1 : length (mrValue s1) = length l).
    { rewrite ES. cbn [mrValue]. rewrite !app_length, map_length, !firstn_length, !skipn_length. nia. }
    assert (N1 : forall j, j < length l -> nth_error (mrValue s1) j = if Nat.eqb (j / size) i then nth_error (map Some ys) j else nth_error (mrValue st) j).
    { intros j Hj. rewrite ES. cbn [mrValue].
      assert (G : forall T (l : list T) m n, m < n -> nth_error (firstn n l) m = nth_error l m).
      { intros T l0. induction l0 as [|y l0 IHl]; intros m n H; [rewrite firstn_nil; destruct m; reflexivity|]. destruct n; [lia|]. destruct m; [reflexivity|]. cbn. apply IHl. lia. }
      assert (G2 : forall T (l : list T) m k, nth_error (skipn k l) m = nth_error l (k + m)).
      { intros T l0. induction l0 as [|y l0 IHl]; intros m k; [rewrite skipn_nil; destruct m; destruct k; reflexivity|]. destruct k; [reflexivity|]. cbn. apply IHl. }
      pose proof (Nat.div_mod j size ltac:(lia)) as DM. pose proof (Nat.mod_upper_bound j size ltac:(lia)) as MB.
      destruct (Nat.lt_ge_cases j (i * size)) as [C|C].
      { rewrite nth_error_app1 by (rewrite firstn_length; lia). rewrite G by exact C.
        destruct (Nat.eqb_spec (j / size) i) as [Q|Q]; [nia|reflexivity]. }
      rewrite nth_error_app2 by (rewrite firstn_length; lia). rewrite firstn_length, Nat.min_l by lia.
      destruct (Nat.lt_ge_cases j ((i + 1) * size)) as [C'|C'].
      - rewrite nth_error_app1 by (rewrite map_length, firstn_length, skipn_length; lia).
        rewrite <- firstn_map, <- skipn_map, G, G2 by lia. replace (i * size + (j - i * size)) with j by lia.
        destruct (Nat.eqb_spec (j / size) i) as [Q|Q]; [reflexivity|]. exfalso. apply Q. symmetry. apply (Nat.div_unique j size i (j - i * size)); nia.
      - rewrite nth_error_app2 by (rewrite map_length, firstn_length, skipn_length; lia).
        rewrite map_length, firstn_length, skipn_length, G2. rewrite Nat.min_l by nia.
        replace ((i + 1) * size + (j - i * size - size)) with j by nia.
        destruct (Nat.eqb_spec (j / size) i) as [Q|Q]; [nia|reflexivity]. }
    destruct (IH s1) as (I1 & I2 & I3); [rewrite ES; reflexivity|exact L1|intros k Hk; apply LT; right; exact Hk|].
    split; [exact I1|]. split; [exact I2|]. intros j Hj H. apply I3; [exact Hj|]. rewrite N1 by exact Hj.
    destruct (Nat.eqb_spec (j / size) i) as [Q|Q]; [left; reflexivity|]. destruct H as [H|[H|H]]; [left; exact H|congruence|right; exact H].
Qed.
(* a failing chunk leaves an error *)
Lemma run_err_keep d : forall st, mrError st <> None -> mrError (fold_left (mrSet f size tasks) d st) <> None.
Proof.
  induction d as [|i d IH]; intros st H; cbn [fold_left]; [exact H|]. apply IH. unfold mrSet. destruct (mapM f _); [exact H|]. cbn. destruct (mrError st); congruence.
Qed.
Lemma run_err d i : In i d -> (exists e, mapM f (nth i tasks []) = Err e) -> forall st, mrError (fold_left (mrSet f size tasks) d st) <> None.
Proof.
  intros Hi (e & He). induction d as [|k d IH]; [destruct Hi|]. intros st. cbn [fold_left]. destruct Hi as [->|Hi]; [|apply IH, Hi].
  apply run_err_keep. unfold mrSet. rewrite He. cbn. destruct (mrError st); discriminate.
Qed.
(* an error comes from an element that fails *)
Lemma run_err_from d : (forall i, In i d -> i < length tasks) -> forall st e, mrError (fold_left (mrSet f size tasks) d st) = Some e -> mrError st = Some e \/ exists x, In x l /\ f x = Err e.
Proof.
  induction d as [|i d IH]; intros LT st e H; cbn [fold_left] in H; [auto|].
  destruct (IH (fun k Hk => LT k (or_intror Hk)) _ _ H) as [H1|H1]; [|auto]. unfold mrSet in H1.
  destruct (mapM f (nth i tasks [])) as [ys|e'] eqn:E; cbn in H1; [auto|]. destruct (mrError st); [auto|]. injection H1 as <-.
  right. destruct (mapM_fail _ _ E) as (x & Hx & Ex). exists x. split; [|exact Ex].
  destruct (chunksOf_spec size SZ (length l) l (le_n _) i) as [_ C2]. rewrite C2 in Hx.
  rewrite <- (firstn_skipn (i * size) l). apply in_or_app. right. rewrite <- (firstn_skipn size (skipn (i * size) l)). apply in_or_app. auto.
Qed.
End Pool.

Theorem poolMap_spec {A B} (f : A -> res B) threads done (l : list A) : 0 < threads -> l <> [] ->
  (forall n, Permutation (done n) (seq 0 n)) ->
  match mapM f l with
  | Ok ys => poolMap f threads done l = Ok (map Some ys)
  | Err _ => exists x e, In x l /\ f x = Err e /\ poolMap f threads done l = Err e
  end.
Proof.
  intros T NE PD. unfold poolMap. set (size := chunksize threads (length l)). assert (SZ : 0 < size) by (apply chunksize_pos; [exact T|destruct l; [congruence|cbn; lia]]).
  set (d := done (length (chunksOf (length l) size l))).
  assert (ID : forall i, In i d <-> i < length (chunksOf (length l) size l)).
  { intros i. unfold d. split; intros H; [apply (Permutation_in _ (PD _)) in H; apply in_seq in H; lia|apply (Permutation_in _ (Permutation_sym (PD _))), in_seq; lia]. }
  destruct (mapM f l) as [ys|e0] eqn:M.
  - destruct (run_ok f l size SZ ys M d (mkMR (repeat None (length l)) None) eq_refl) as (H1 & H2 & H3); [cbn; apply repeat_length|intros i Hi; apply ID, Hi|].
    rewrite H1. f_equal. pose proof (mapM_length f l ys M) as LY.
    apply nth_error_ext_len; [rewrite map_length; lia|]. intros j Hj. apply H3; [lia|]. right. apply ID.
    destruct (chunksOf_spec size SZ (length l) l (le_n _) (j / size)) as [C1 _]. apply C1. pose proof (Nat.div_mod j size ltac:(lia)). lia.
  - destruct (mapM_fail f l e0 M) as (x & Hx & Ex). destruct (in_chunk size l x SZ Hx) as (i & Hi & Ci).
    assert (CF : exists e, mapM f (nth i (chunksOf (length l) size l) []) = Err e).
    { destruct (mapM f (nth i _ [])) as [ys|e] eqn:E; [|eauto]. exfalso. apply mapM_ok in E. clear -E Ci Ex. induction E; [destruct Ci|]. destruct Ci as [->|Ci]; [congruence|auto]. }
    pose proof (run_err f l size d i (proj2 (ID i) Hi) CF (mkMR (repeat None (length l)) None)) as ER.
    destruct (mrError _) as [e|] eqn:EE; [|contradiction]. destruct (run_err_from f l size SZ d (fun k Hk => proj1 (ID k) Hk) _ _ EE) as [K|(y & Hy & Ey)]; [discriminate|]. eauto.
Qed.

Section MakeP.
Context {N : Num}.
Variable radians : num -> num.
Variable parse : string -> res json.
Variable version : string.
Variable f32 : num -> res bytes.
Variable face : Type.
Variable triangulate : face -> res (list tri).
Variable plan body : Type.
Variable bodyPart : body -> part face.
Variable mkKnob : dict -> res (list tri).
Variable mkPlan : dict -> string -> res plan.
Variable mkBody : dict -> plan -> res body.
Variable mkFloor : dict -> plan -> body -> res (part face).
Variable mkPalm mkSupport : dict -> plan -> res (part face).
Variable mkPcb : dict -> plan -> plan -> res string.
Notation make := (make radians parse version f32 face triangulate plan body bodyPart mkKnob mkPlan mkBody mkFloor mkPalm mkSupport mkPcb).
Notation triangulateAll := (triangulateAll face triangulate).

Lemma triangulateAll_ok threads done faces r : (forall n, Permutation (done n) (seq 0 n)) ->
  triangulateAll threads done faces = Ok r <-> (exists ys, mapM triangulate faces = Ok ys /\ r = map Some ys) /\ ((threads <= 1)%Z \/ faces <> []).
Proof.
  intros PD. unfold MakeModel.triangulateAll. destruct (Z.leb_spec threads 1) as [T|T].
  - destruct (mapM triangulate faces) as [ys|e]; cbn; split.
    + intros H. apply Ok_inj in H. eauto.
    + intros [(zs & E & ->) _]. apply Ok_inj in E. subst. reflexivity.
    + discriminate.
    + intros [(zs & E & _) _]. discriminate.
  - destruct faces as [|x faces].
    { split; [discriminate|]. intros [_ [H|H]]; [lia|congruence]. }
    pose proof (poolMap_spec triangulate (Z.to_nat threads) done (x :: faces) ltac:(lia) ltac:(discriminate) PD) as PM.
    destruct (mapM triangulate (x :: faces)) as [ys|e].
    + rewrite PM. split.
      * intros H. apply Ok_inj in H. split; [eauto|right; discriminate].
      * intros [(zs & E & ->) _]. apply Ok_inj in E. subst. reflexivity.
    + destruct PM as (y & e' & _ & _ & PM). rewrite PM. split; [discriminate|]. intros [(zs & E & _) _]. discriminate.
Qed.
Lemma pop_spec (faces : list face) : forall fts rest acc ys, mapM triangulate faces = Ok ys -> fts = map Some ys ++ rest ->
  popTriangles face faces fts acc = Ok (acc ++ concat ys, rest).
Proof.
  induction faces as [|x faces IH]; intros fts rest acc ys H E; cbn in H.
  - okinv H. subst fts. cbn. rewrite app_nil_r. reflexivity.
  - apply bind_ok in H. destruct H as (y & Ey & H). apply bind_ok in H. destruct H as (zs & Ez & H). apply Ok_inj in H. subst ys fts. cbn [map app popTriangles].
    rewrite (IH _ rest (acc ++ y) zs Ez eq_refl). cbn [concat]. rewrite app_assoc. reflexivity.
Qed.
(* the mesh of one part: its own triangles, those of its faces, mirrored for the
   left half *)
Definition meshOf (name : string) (p : part face) (ts : list tri) : Prop :=
  exists fts, mapM triangulate (pfaces face p) = Ok fts /\
    ts = (if contains name "left" then map (fun t => treversed (tmirX t)) else fun l => l) (ptriangles face p ++ concat fts).
Lemma combine_spec (parts : list (string * part face)) : forall ys, mapM triangulate (flat_map (fun np => pfaces face (snd np)) parts) = Ok ys ->
  exists tss, combineTriangles face parts (map Some ys) = Ok tss /\ Forall2 (fun np nt => fst nt = fst np /\ meshOf (fst np) (snd np) (snd nt)) parts tss.
Proof.
  induction parts as [|[name p] parts IH]; intros ys H; cbn [flat_map combineTriangles] in *; [exists []; split; [reflexivity|constructor]|].
  rewrite mapM_app in H. apply bind_ok in H. destruct H as (y1 & E1 & H). apply bind_ok in H. destruct H as (y2 & E2 & H). apply Ok_inj in H. subst ys.
  rewrite map_app. cbn [snd] in E1. rewrite (pop_spec _ _ (map Some y2) (ptriangles face p) y1 E1 eq_refl). cbn [bind].
  destruct (IH _ E2) as (tss & E & F). rewrite E. cbn [bind]. eexists. split; [reflexivity|]. constructor; [|exact F]. cbn [fst snd]. split; [reflexivity|].
  exists y1. split; [exact E1|]. destruct (contains name "left"); reflexivity.
Qed.
Lemma mapM_flat_parts (parts : list (string * part face)) : forall tss ft, combineTriangles face parts ft = Ok tss -> map fst tss = map fst parts.
Proof.
  induction parts as [|[name p] parts IH]; intros tss ft H; cbn in H; [okinv H; reflexivity|].
  apply bind_ok in H. destruct H as ([ts ft'] & _ & H). apply bind_ok in H. destruct H as (r & E & H). apply Ok_inj in H. subst tss. cbn. f_equal. eapply IH; eauto.
Qed.

Hypothesis body_faces : forall g p b, mkBody g p = Ok b -> pfaces face (bodyPart b) <> [].
Lemma parts_faces g planR planL parts : makeParts face plan body bodyPart mkBody mkFloor mkPalm mkSupport g planR planL = Ok parts ->
  flat_map (fun np => pfaces face (snd np)) parts <> [].
Proof.
  unfold makeParts. intros H. apply bind_ok in H. destruct H as (bR & EB & H). do 6 (apply bind_ok in H; destruct H as (? & _ & H)).
  apply bind_ok in H. destruct H as (ss & _ & H). apply Ok_inj in H. subst parts. cbn [app flat_map snd]. specialize (body_faces _ _ _ EB).
  destruct (pfaces face (bodyPart bR)); [contradiction|discriminate].
Qed.
Theorem make_threads globals strings t1 d1 t2 d2 k files : (forall n, Permutation (d1 n) (seq 0 n)) -> (forall n, Permutation (d2 n) (seq 0 n)) ->
  make globals strings t1 d1 k = Ok files -> make globals strings t2 d2 k = Ok files.
Proof.
  intros P1 P2. unfold MakeModel.make. intros H.
  apply bind_ok in H. destruct H as (g & E1 & H). rewrite E1. cbn [bind].
  apply bind_ok in H. destruct H as (u & E2 & H). rewrite E2. cbn [bind].
  apply bind_ok in H. destruct H as (kn & E3 & H). rewrite E3. cbn [bind].
  apply bind_ok in H. destruct H as (fs & E4 & H). rewrite E4. cbn [bind].
  destruct k; [exact H|].
  apply bind_ok in H. destruct H as (pR & E5 & H). rewrite E5. cbn [bind].
  apply bind_ok in H. destruct H as (pL & E6 & H). rewrite E6. cbn [bind].
  apply bind_ok in H. destruct H as (ps & E7 & H). rewrite E7. cbn [bind].
  apply bind_ok in H. destruct H as (pc & E8 & H). rewrite E8. cbn [bind].
  apply bind_ok in H. destruct H as (pf & E9 & H). rewrite E9. cbn [bind].
  apply bind_ok in H. destruct H as (ft & E10 & H).
  apply (triangulateAll_ok t1 d1 _ _ P1) in E10. destruct E10 as [K _].
  assert (E11 : triangulateAll t2 d2 (flat_map (fun np => pfaces face (snd np)) ps) = Ok ft).
  { apply (triangulateAll_ok t2 d2 _ _ P2). split; [exact K|]. right. exact (parts_faces _ _ _ _ E7). }
  rewrite E11. exact H.
Qed.
End MakeP.

Section MakeFiles.
Context {N : Num}.
Variable radians : num -> num.
Variable parse : string -> res json.
Variable version : string.
Variable f32 : num -> res bytes.
Variable face : Type.
Variable triangulate : face -> res (list tri).
Variable plan body : Type.
Variable bodyPart : body -> part face.
Variable mkKnob : dict -> res (list tri).
Variable mkPlan : dict -> string -> res plan.
Variable mkBody : dict -> plan -> res body.
Variable mkFloor : dict -> plan -> body -> res (part face).
Variable mkPalm mkSupport : dict -> plan -> res (part face).
Variable mkPcb : dict -> plan -> plan -> res string.
Notation make := (make radians parse version f32 face triangulate plan body bodyPart mkKnob mkPlan mkBody mkFloor mkPalm mkSupport mkPcb).
Notation meshOf := (meshOf face triangulate).
Notation makeParts := (makeParts face plan body bodyPart mkBody mkFloor mkPalm mkSupport).

Lemma stls_spec tss stls : mapM (fun nt : string * list tri => bs <- toBytes f32 version (snd nt) ;; Ok (String.append (fst nt) ".stl", Bytes bs)) tss = Ok stls ->
  Forall2 (fun nt s => fst s = String.append (fst nt) ".stl" /\ exists bs, toBytes f32 version (snd nt) = Ok bs /\ snd s = Bytes bs) tss stls.
Proof.
  rewrite mapM_ok. intros F. eapply Forall2_imp; [|exact F]. intros [n ts] [n' d] H. cbn [fst snd] in *. apply bind_ok in H. destruct H as (bs & E & H). apply Ok_inj in H. injection H as <- <-. eauto.
Qed.
Theorem make_files globals strings threads done files : (forall n, Permutation (done n) (seq 0 n)) ->
  make globals strings threads done false = Ok files ->
  exists g kn knobFiles planR planL parts pc pcbFiles stls,
    cfgInit radians parse globals strings = Ok g /\ truthy g "knob" = Ok kn /\
    (if kn : bool then exists ts bs, mkKnob g = Ok ts /\ toBytes f32 version ts = Ok bs /\ knobFiles = [("rotary-knob.stl"%string, Bytes bs)] else knobFiles = []) /\
    mkPlan g "right" = Ok planR /\ mkPlan g "left" = Ok planL /\ makeParts g planR planL = Ok parts /\
    truthy g "pcb" = Ok pc /\
    (if pc : bool then exists s, mkPcb g planR planL = Ok s /\ pcbFiles = [("pcb-positions.kicad_mod"%string, Text s)] else pcbFiles = []) /\
    Forall2 (fun np s => fst s = String.append (fst np) ".stl" /\ exists ts bs, meshOf (fst np) (snd np) ts /\ toBytes f32 version ts = Ok bs /\ snd s = Bytes bs) parts stls /\
    files = knobFiles ++ pcbFiles ++ stls.
Proof.
  intros PD. unfold MakeModel.make. intros H.
  apply bind_ok in H. destruct H as (g & E1 & H). apply bind_ok in H. destruct H as (u & E2 & H). apply bind_ok in H. destruct H as (kn & E3 & H).
  apply bind_ok in H. destruct H as (fs & E4 & H). apply bind_ok in H. destruct H as (pR & E5 & H). apply bind_ok in H. destruct H as (pL & E6 & H).
  apply bind_ok in H. destruct H as (ps & E7 & H). apply bind_ok in H. destruct H as (pc & E8 & H). apply bind_ok in H. destruct H as (pf & E9 & H).
  apply bind_ok in H. destruct H as (ft & E10 & H). apply bind_ok in H. destruct H as (tss & E11 & H). apply bind_ok in H. destruct H as (stls & E12 & H). apply Ok_inj in H.
  exists g, kn, fs, pR, pL, ps, pc, pf, stls. split; [exact E1|]. split; [exact E3|]. split.
  { destruct kn; [|okinv E4; reflexivity]. apply bind_ok in E4. destruct E4 as (ts & A & E4). apply bind_ok in E4. destruct E4 as (bs & B & E4). apply Ok_inj in E4. subst fs. eauto. }
  split; [exact E5|]. split; [exact E6|]. split; [exact E7|]. split; [exact E8|]. split.
  { destruct pc; [|okinv E9; reflexivity]. apply bind_ok in E9. destruct E9 as (s & A & E9). apply Ok_inj in E9. subst pf. eauto. }
  split; [|symmetry; exact H]. clear H E1 E2 E3 E4 E5 E6 E7 E8 E9.
  apply (triangulateAll_ok face triangulate threads done _ _ PD) in E10. destruct E10 as [(ys & EY & ->) _].
  destruct (combine_spec face triangulate ps ys EY) as (tss' & EC & F). rewrite EC in E11. apply Ok_inj in E11. subst tss'.
  apply stls_spec in E12. clear EY EC ys. revert stls E12. induction F as [|np nt ps tss (Q1 & Q2) F IH]; intros stls E12; inversion E12 as [|? s ? stls' (R1 & bs & R2 & R3) R4]; subst; constructor.
  - split; [congruence|]. exists (snd nt), bs. auto.
  - apply IH, R4.
Qed.
Theorem makeParts_spec g planR planL parts : makeParts g planR planL = Ok parts ->
  exists bR bL fR fL palm palms support supports,
    mkBody g planR = Ok bR /\ mkBody g planL = Ok bL /\ mkFloor g planR bR = Ok fR /\ mkFloor g planL bL = Ok fL /\
    truthy g "palm" = Ok palm /\ truthy g "support" = Ok support /\
    (if palm : bool then exists r l, mkPalm g planR = Ok r /\ mkPalm g planL = Ok l /\ palms = [("palm-right"%string, r); ("palm-left"%string, l)] else palms = []) /\
    (if support : bool then exists r l, mkSupport g planR = Ok r /\ mkSupport g planL = Ok l /\ supports = [("support-right"%string, r); ("support-left"%string, l)] else supports = []) /\
    parts = [("body-right"%string, bodyPart bR); ("body-left"%string, bodyPart bL); ("floor-right"%string, fR); ("floor-left"%string, fL)] ++ palms ++ supports.
Proof.
  unfold MakeModel.makeParts. intros H.
  apply bind_ok in H. destruct H as (bR & E1 & H). apply bind_ok in H. destruct H as (bL & E2 & H). apply bind_ok in H. destruct H as (fR & E3 & H).
  apply bind_ok in H. destruct H as (fL & E4 & H). apply bind_ok in H. destruct H as (pa & E5 & H). apply bind_ok in H. destruct H as (ps & E6 & H).
  apply bind_ok in H. destruct H as (su & E7 & H). apply bind_ok in H. destruct H as (ss & E8 & H). apply Ok_inj in H.
  exists bR, bL, fR, fL, pa, ps, su, ss. do 6 (split; [assumption|]). split; [|split; [|symmetry; exact H]].
  - destruct pa; [|okinv E6; reflexivity]. apply bind_ok in E6. destruct E6 as (r & A & E6). apply bind_ok in E6. destruct E6 as (l & B & E6). apply Ok_inj in E6. eauto.
  - destruct su; [|okinv E8; reflexivity]. apply bind_ok in E8. destruct E8 as (r & A & E8). apply bind_ok in E8. destruct E8 as (l & B & E8). apply Ok_inj in E8. eauto.
Qed.
End MakeFiles.
