(** C40, C41, C57: make.py. *)
From Coq Require Import Ascii String Reals Lra ZArith List Bool Permutation Lia.
From Verif Require Import Num GeoModel EdgeModel EdgeSpec FaceModel FaceComb CfgModel CfgSpec StlModel StlProof MakeModel MakeProof GeoSpec GeoMat NormSpec GeoNormal Toy.
Import ListNotations.
Open Scope list_scope.

(** ** C40 the pool *)
(* Pool.map with any number of workers, whose chunks finish in any order,
   returns what calling f on the elements one after the other returns; if a call
   raises, it raises the exception of some element *)
Theorem C40_pool_map : forall (A B : Type) (f : A -> res B) threads done (l : list A),
  (0 < threads)%nat -> l <> [] -> (forall n, Permutation (done n) (seq 0 n)) ->
  match mapM f l with
  | Ok ys => poolMap f threads done l = Ok (map Some ys)
  | Err _ => exists x e, In x l /\ f x = Err e /\ poolMap f threads done l = Err e
  end.
Proof. intros A B. exact poolMap_spec. Qed.
Print Assumptions C40_pool_map.
(* 2 workers, 9 items: chunks of 2 finishing in a strange order *)
Example C40_computes : poolMap (fun n : nat => if Nat.eqb n 100 then Err ValueErr else Ok (n * n)%nat) 2 (fun n => rev (seq 0 n)) [1; 2; 3; 4; 5; 6; 7; 8; 9]%nat =
  Ok (map Some [1; 4; 9; 16; 25; 36; 49; 64; 81]%nat) /\ chunksize 2 9 = 2%nat /\ length (chunksOf 9 2 [1; 2; 3; 4; 5; 6; 7; 8; 9]%nat) = 5%nat.
Proof. vm_compute. auto. Qed.
(* so all the files are the same *)
Theorem C40_threads_irrelevant : forall (N : Num) radians parse version f32 face triangulate plan body bodyPart mkKnob mkPlan mkBody mkFloor mkPalm mkSupport mkPcb,
  (forall g p b, mkBody g p = Ok b -> pfaces face (bodyPart b) <> []) ->
  forall globals strings knobOnly threads threads' done done' files,
  (forall n, Permutation (done n) (seq 0 n)) -> (forall n, Permutation (done' n) (seq 0 n)) ->
  let make := make radians parse version f32 face triangulate plan body bodyPart mkKnob mkPlan mkBody mkFloor mkPalm mkSupport mkPcb in
  make globals strings threads done knobOnly = Ok files <-> make globals strings threads' done' knobOnly = Ok files.
Proof.
  intros N radians parse version f32 face triangulate plan body bodyPart mkKnob mkPlan mkBody mkFloor mkPalm mkSupport mkPcb BF globals strings k t t' d d' files P1 P2.
  split; apply make_threads; assumption.
Qed.
Print Assumptions C40_threads_irrelevant.
(* without any face the pool is never started: IndexError, only with more than one thread *)
Theorem C40_no_faces : forall (N : Num) face triangulate done,
  triangulateAll face triangulate 2 done [] = Err IndexErr /\ triangulateAll face triangulate 1 done [] = Ok [].
Proof. intros. split; reflexivity. Qed.
Print Assumptions C40_no_faces.

(** ** C57 the files *)
Open Scope string_scope.
Definition part_names (palm support : bool) : list string :=
  (["body-right"; "body-left"; "floor-right"; "floor-left"] ++
   (if palm then ["palm-right"; "palm-left"] else []) ++ (if support then ["support-right"; "support-left"] else []))%list.
(* setting k of the configuration is given, and true in Python's sense *)
Definition setting {N : Num} (g : dict) (k : string) (b : bool) : Prop := exists f, attr g [k] = Some f /\ truth f = b.
Lemma truthy_setting {N : Num} (g : dict) k b : truthy g k = Ok b <-> setting g k b.
Proof. unfold truthy, setting. destruct (attr g [k]) as [f|]; split; [intros H; okinv H; eauto|intros (f' & E & <-); congruence|discriminate|intros (f' & E & _); discriminate]. Qed.
Theorem C57_file_names : forall (N : Num) radians parse version f32 face triangulate plan body bodyPart mkKnob mkPlan mkBody mkFloor mkPalm mkSupport mkPcb
  globals strings threads done files, (forall n, Permutation (done n) (seq 0 n)) ->
  make radians parse version f32 face triangulate plan body bodyPart mkKnob mkPlan mkBody mkFloor mkPalm mkSupport mkPcb globals strings threads done false = Ok files ->
  exists g knob pcb palm support, cfgInit radians parse globals strings = Ok g /\
    setting g "knob" knob /\ setting g "pcb" pcb /\ setting g "palm" palm /\ setting g "support" support /\
    map fst files = ((if knob then ["rotary-knob.stl"] else []) ++ (if pcb then ["pcb-positions.kicad_mod"] else []) ++
      map (fun n => String.append n ".stl") (part_names palm support))%list.
Proof.
  intros N radians parse version f32 face triangulate plan body bodyPart mkKnob mkPlan mkBody mkFloor mkPalm mkSupport mkPcb globals strings threads done files PD H.
  apply make_files in H; [|exact PD]. destruct H as (g & kn & kf & pR & pL & parts & pc & pf & stls & E1 & E2 & E3 & E4 & E5 & E6 & E7 & E8 & E9 & ->).
  apply makeParts_spec in E6. destruct E6 as (bR & bL & fR & fL & palm & palms & su & sus & A1 & A2 & A3 & A4 & A5 & A6 & A7 & A8 & ->).
  exists g, kn, pc, palm, su. rewrite <- !truthy_setting. do 5 (split; [assumption|]).
  assert (NK : map fst kf = if kn then ["rotary-knob.stl"] else []) by (destruct kn; [destruct E3 as (? & ? & _ & _ & ->)|rewrite E3]; reflexivity).
  assert (NP : map fst pf = if pc then ["pcb-positions.kicad_mod"] else []) by (destruct pc; [destruct E8 as (? & _ & ->)|rewrite E8]; reflexivity).
  rewrite !map_app, NK, NP. f_equal. f_equal.
  assert (NS : map fst stls = map (fun n => String.append n ".stl") (map fst ([("body-right", bodyPart bR); ("body-left", bodyPart bL); ("floor-right", fR); ("floor-left", fL)] ++ palms ++ sus)%list)).
  { clear -E9. induction E9 as [|np s ps ss (Q & _) F IH]; [reflexivity|]. cbn [map]. rewrite Q, IH. reflexivity. }
  rewrite NS. f_equal. unfold part_names. rewrite !map_app. cbn [map fst]. f_equal. f_equal.
  - destruct palm; [destruct A7 as (? & ? & _ & _ & ->)|rewrite A7]; reflexivity.
  - destruct su; [destruct A8 as (? & ? & _ & _ & ->)|rewrite A8]; reflexivity.
Qed.
Print Assumptions C57_file_names.
(* with --knob at most the knob is made *)
Theorem C57_knob_only : forall (N : Num) radians parse version f32 face triangulate plan body bodyPart mkKnob mkPlan mkBody mkFloor mkPalm mkSupport mkPcb
  globals strings threads done files,
  make radians parse version f32 face triangulate plan body bodyPart mkKnob mkPlan mkBody mkFloor mkPalm mkSupport mkPcb globals strings threads done true = Ok files ->
  exists g, cfgInit radians parse globals strings = Ok g /\
   ((setting g "knob" false /\ files = []) \/
    (setting g "knob" true /\ exists ts bs, mkKnob g = Ok ts /\ toBytes f32 version ts = Ok bs /\ files = [("rotary-knob.stl", Bytes bs)])).
Proof.
  intros N radians parse version f32 face triangulate plan body bodyPart mkKnob mkPlan mkBody mkFloor mkPalm mkSupport mkPcb globals strings threads done files H.
  unfold make in H. apply bind_ok in H. destruct H as (g & E1 & H). apply bind_ok in H. destruct H as (u & E2 & H). apply bind_ok in H. destruct H as (kn & E3 & H).
  apply bind_ok in H. destruct H as (fs & E4 & H). apply Ok_inj in H. subst fs. exists g. split; [exact E1|]. rewrite <- !truthy_setting. destruct kn.
  - right. split; [exact E3|]. apply bind_ok in E4. destruct E4 as (ts & A & E4). apply bind_ok in E4. destruct E4 as (bs & B & E4). apply Ok_inj in E4. eauto.
  - left. split; [exact E3|]. okinv E4. reflexivity.
Qed.
Print Assumptions C57_knob_only.

(** ** C41 the left half *)
(* the mirror image in the yz plane, with the corners in reverse order *)
Definition mirrored_point {N : Num} (p : vec) : vec := V (nopp (vx p)) (vy p) (vz p).
Definition mirrored_tri {N : Num} (t : tri) : tri := mkTri (mirrored_point (tc t)) (mirrored_point (tb t)) (mirrored_point (ta t)).
(* file contents: the part's triangles, then those of its faces in order *)
Definition stl_of {N : Num} {face : Type} (f32 : num -> res bytes) version (triangulate : face -> res (list tri)) (change : tri -> tri) (p : part face) (d : data) : Prop :=
  exists fts bs, mapM triangulate (pfaces face p) = Ok fts /\
    toBytes f32 version (map change (ptriangles face p ++ concat fts)%list) = Ok bs /\ d = Bytes bs.
Theorem C41_contents : forall (N : Num) radians parse version f32 face triangulate plan body bodyPart mkKnob mkPlan mkBody mkFloor mkPalm mkSupport mkPcb
  globals strings threads done files, (forall n, Permutation (done n) (seq 0 n)) ->
  make radians parse version f32 face triangulate plan body bodyPart mkKnob mkPlan mkBody mkFloor mkPalm mkSupport mkPcb globals strings threads done false = Ok files ->
  let holds name change p := exists d, In (name, d) files /\ stl_of f32 version triangulate change p d in
  let as_is t := t in
  exists g planR planL bodyR bodyL floorR floorL, cfgInit radians parse globals strings = Ok g /\
    mkPlan g "right" = Ok planR /\ mkPlan g "left" = Ok planL /\
    mkBody g planR = Ok bodyR /\ mkBody g planL = Ok bodyL /\ mkFloor g planR bodyR = Ok floorR /\ mkFloor g planL bodyL = Ok floorL /\
    holds "body-right.stl" as_is (bodyPart bodyR) /\ holds "body-left.stl" mirrored_tri (bodyPart bodyL) /\
    holds "floor-right.stl" as_is floorR /\ holds "floor-left.stl" mirrored_tri floorL /\
    (setting g "palm" true -> exists r l, mkPalm g planR = Ok r /\ mkPalm g planL = Ok l /\
       holds "palm-right.stl" as_is r /\ holds "palm-left.stl" mirrored_tri l) /\
    (setting g "support" true -> exists r l, mkSupport g planR = Ok r /\ mkSupport g planL = Ok l /\
       holds "support-right.stl" as_is r /\ holds "support-left.stl" mirrored_tri l).
Proof.
  intros N radians parse version f32 face triangulate plan body bodyPart mkKnob mkPlan mkBody mkFloor mkPalm mkSupport mkPcb globals strings threads done files PD H. cbv zeta.
  apply make_files in H; [|exact PD]. destruct H as (g & kn & kf & pR & pL & parts & pc & pf & stls & E1 & E2 & E3 & E4 & E5 & E6 & E7 & E8 & E9 & ->).
  apply makeParts_spec in E6. destruct E6 as (bR & bL & fR & fL & palm & palms & su & sus & A1 & A2 & A3 & A4 & A5 & A6 & A7 & A8 & EP).
  assert (G : forall np, In np parts -> exists d, In ((fst np ++ ".stl")%string, d) (kf ++ pf ++ stls)%list /\
     stl_of f32 version triangulate (if contains (fst np) "left" then mirrored_tri else fun t => t) (snd np) d).
  { intros np Hin. assert (F : exists s, In s stls /\ fst s = (fst np ++ ".stl")%string /\ exists ts bs, meshOf face triangulate (fst np) (snd np) ts /\ toBytes f32 version ts = Ok bs /\ snd s = Bytes bs).
    { clear -E9 Hin. induction E9 as [|np' s ps ss (Q1 & Q2) F IH]; [destruct Hin|]. destruct Hin as [->|Hin]; [exists s; cbn; auto|]. destruct (IH Hin) as (s' & K & L). exists s'. cbn. auto. }
    destruct F as ([n d] & Hs & Q1 & ts & bs & (fts & M1 & M2) & M3 & M4). cbn [fst snd] in *. subst n d. exists (Bytes bs). split; [apply in_or_app; right; apply in_or_app; right; exact Hs|].
    exists fts, bs. split; [exact M1|]. split; [|reflexivity]. rewrite M2 in M3. destruct (contains (fst np) "left"); [exact M3|]. rewrite map_id. exact M3. }
  exists g, pR, pL, bR, bL, fR, fL. do 7 (split; [assumption|]). subst parts.
  assert (B1 := G ("body-right", bodyPart bR) (or_introl eq_refl)). assert (B2 := G ("body-left", bodyPart bL) (or_intror (or_introl eq_refl))).
  assert (B3 := G ("floor-right", fR) (or_intror (or_intror (or_introl eq_refl)))). assert (B4 := G ("floor-left", fL) (or_intror (or_intror (or_intror (or_introl eq_refl))))).
  split; [exact B1|]. split; [exact B2|]. split; [exact B3|]. split; [exact B4|]. split; rewrite <- truthy_setting; intros T.
  - assert (palm = true) by congruence. subst palm. destruct A7 as (r & l & R1 & R2 & ->). exists r, l. split; [exact R1|]. split; [exact R2|].
    split; [exact (G ("palm-right", r) ltac:(cbn; auto 10))|exact (G ("palm-left", l) ltac:(cbn; auto 10))].
  - assert (su = true) by congruence. subst su. destruct A8 as (r & l & R1 & R2 & ->). exists r, l. split; [exact R1|]. split; [exact R2|].
    assert (I : forall x, In x [("support-right", r); ("support-left", l)] -> In x ([("body-right", bodyPart bR); ("body-left", bodyPart bL); ("floor-right", fR); ("floor-left", fL)] ++ palms ++ [("support-right", r); ("support-left", l)])%list) by (intros x Hx; apply in_or_app; right; apply in_or_app; right; exact Hx).
    split; [exact (G ("support-right", r) (I _ (or_introl eq_refl)))|exact (G ("support-left", l) (I _ (or_intror (or_introl eq_refl))))].
Qed.
Print Assumptions C41_contents.

Close Scope string_scope.
Open Scope R_scope.
(* the mirrored mesh: closed if the mesh is, with the same volume about the
   mirrored point, so inside stays inside; each normal is the mirrored normal (C27) *)
Theorem C41_mirrored_mesh : forall ts : list (@tri Rnum),
  (watertight veqb ts -> watertight veqb (map mirrored_tri ts)) /\
  (forall o : pt, mesh_volume (mirrored_point o) (map mirrored_tri ts) = mesh_volume o ts).
Proof.
  assert (ME : forall p q : pt, veqb (mirrored_point p) q = veqb p (mirrored_point q)).
  { intros [x y z] [x' y' z']. unfold veqb, mirrored_point. cbn. rn. f_equal. f_equal. unfold Reqb. destruct (Req_EM_T _ _), (Req_EM_T _ _); try reflexivity; exfalso; lra. }
  intros ts. split.
  - intros W u v. specialize (W (mirrored_point v) (mirrored_point u)). cbn [fold_right] in *.
    assert (G : forall a b, mesh_uses veqb a b (map mirrored_tri ts) = mesh_uses veqb (mirrored_point b) (mirrored_point a) ts).
    { intros a b. unfold mesh_uses. clear -ME. induction ts as [|t ts IH]; [reflexivity|]. cbn [map fold_right]. rewrite IH. f_equal. unfold uses, mirrored_tri. cbn [ta tb tc]. rewrite !ME.
      rewrite (andb_comm (veqb (tc t) (mirrored_point a))), (andb_comm (veqb (tb t) (mirrored_point a))), (andb_comm (veqb (ta t) (mirrored_point a))). lia. }
    rewrite !G. exact W.
  - intros o. unfold mesh_volume. f_equal. rewrite map_map. apply map_ext. intros [[x1 y1 z1] [x2 y2 z2] [x3 y3 z3]]. destruct o as [x y z]. unfold mirrored_tri, mirrored_point. cbn [ta tb tc]. alg. ring.
Qed.
Print Assumptions C41_mirrored_mesh.
Example C41_nonvacuous : let a := P 0 0 0 in let b := P 1 0 0 in let c := P 0 1 0 in let d := P 0 0 1 in
  let ts := [mkTri a c b; mkTri a b d; mkTri b c d; mkTri c a d] in
  watertight veqb ts /\ mesh_volume (P 5 6 7) (map mirrored_tri ts) = 1.
Proof.
  cbv zeta. split.
  - intros u v. unfold mesh_uses, uses. cbn [fold_right ta tb tc]. repeat rewrite (andb_comm (veqb _ v) (veqb _ u)). lia.
  - unfold mesh_volume. cbn. alg. ring.
Qed.

(* a run of make on tiny parts: every hypothesis above is met *)
Open Scope string_scope.
Definition tinyTri : @tri Toy := @mkTri Toy (@V Toy 0 0 0)%Z (@V Toy 1 0 0)%Z (@V Toy 0 1 0)%Z.
Definition tinyCfg : res (@json Toy) :=
  Ok (JObj [("maker", JStr "chrumm 1.0.2"); ("quality", JObj []); ("knob", JBool false); ("palm", JNull); ("support", JObj [("x", JBool true)]); ("pcb", JObj [])]).
Definition tinyPart : @part Toy nat := @mkPart Toy nat [3; 4]%nat [tinyTri].
Definition tinyMake (threads : BinNums.Z) (done : nat -> list nat) :=
  @make Toy (fun x => x) (fun _ => tinyCfg) "1.0.2" (fun _ => Ok [0; 0; 0; 0]%Z) nat (fun n => Ok (repeat tinyTri n))
    unit unit (fun _ => tinyPart) (fun _ => Ok []) (fun _ _ => Ok tt) (fun _ _ => Ok tt) (fun _ _ _ => Ok tinyPart) (fun _ _ => Ok tinyPart) (fun _ _ => Ok tinyPart) (fun _ _ _ => Ok "x")
    [] ["config"] threads done false.
Example C57_nonvacuous :
  rmap (map fst) (tinyMake 3 (fun n => rev (seq 0 n))) =
    Ok ["pcb-positions.kicad_mod"; "body-right.stl"; "body-left.stl"; "floor-right.stl"; "floor-left.stl"; "support-right.stl"; "support-left.stl"] /\
  tinyMake 1 (fun n => seq 0 n) = tinyMake 3 (fun n => rev (seq 0 n)).
Proof. vm_compute. split; reflexivity. Qed.
