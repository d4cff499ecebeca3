(** The whole triangulation: boundary of the result, for every arithmetic in
    which a point has no direction to itself. *)
From Coq Require Import ZArith List Permutation Lia Arith Bool.
From Verif Require Import Num GeoModel EdgeModel EdgeSpec FaceModel FaceSpec FaceComb FaceCut FaceHole FaceFlip.
Import ListNotations.
Open Scope nat_scope.

Section All.
Context {N : Num}.

(* sums of an antisymmetric function over directed sides *)
Definition esum (g : nat -> nat -> Z) (es : list dedge) : Z := fold_right (fun e s => (g (fst e) (snd e) + s)%Z) 0%Z es.
Lemma esum_app g l1 l2 : esum g (l1 ++ l2) = (esum g l1 + esum g l2)%Z.
Proof. unfold esum. induction l1 as [|e l1 IH]; cbn; [reflexivity|]. rewrite IH. lia. Qed.
Lemma esum_perm g l1 l2 : Permutation l1 l2 -> esum g l1 = esum g l2.
Proof. unfold esum. induction 1; cbn; lia. Qed.
Lemma esum_both g l : (forall i j, g i j = (- g j i)%Z) -> esum g (both_ways l) = 0%Z.
Proof.
  intros A. unfold esum. induction l as [|e l IH]; [reflexivity|]. change (both_ways (e :: l)) with ([e; back e] ++ both_ways l).
  cbn [app fold_right back fst snd]. rewrite IH, (A (snd e)). lia.
Qed.
Lemma esum_fills g ts outline k : (forall i j, g i j = (- g j i)%Z) -> fills ts outline k -> esum g (mesh_sides ts) = esum g outline.
Proof. intros A (ds & _ & P). rewrite (esum_perm _ _ _ P), esum_app, (esum_both _ _ A). lia. Qed.

Variable real : list vec.
Notation r_ i := (at_ real i).
Definition toTri (t : itri) : tri := let '(i, j, k) := t in mkTri (r_ i) (r_ j) (r_ k).
Definition pull (f : weight) : nat -> nat -> Z := fun i j => f (r_ i) (r_ j).
Lemma flux_mesh f ts : flux f (map toTri ts) = esum (pull f) (mesh_sides ts).
Proof.
  induction ts as [|[[a b] c] ts IH]; [reflexivity|]. change (mesh_sides ((a, b, c) :: ts)) with ([(a, b); (b, c); (c, a)] ++ mesh_sides ts).
  rewrite esum_app, <- IH. change (flux f (map toTri ((a, b, c) :: ts))) with (circ f (toTri (a, b, c)) + flux f (map toTri ts))%Z.
  unfold circ, esum, pull, toTri. cbn [fold_right fst snd ta tb tc]. lia.
Qed.
(* the polygon of consecutive points *)
Lemma walk_opn f l : walk f (map (fun i => r_ i) l) = esum (pull f) (opn l).
Proof.
  induction l as [|a [|b l] IH]; [reflexivity|reflexivity|]. change (opn (a :: b :: l)) with ((a, b) :: opn (b :: l)).
  cbn [esum fold_right fst snd]. change (fold_right _ 0%Z (opn (b :: l))) with (esum (pull f) (opn (b :: l))). rewrite <- IH. reflexivity.
Qed.
Lemma walk_sides f l : walk f (outline (map (fun i => r_ i) l) true) = esum (pull f) (sides l).
Proof.
  unfold outline. destruct l as [|a l]; [reflexivity|]. rewrite (sides_opn (a :: l) 0) by discriminate. rewrite <- walk_opn, map_app. reflexivity.
Qed.
End All.

Section Whole.
Context {N : Num}.
Lemma map_at_seq (pre l post : list vec) : map (fun i => at_ (pre ++ l ++ post) i) (seq (length pre) (length l)) = l.
Proof.
  apply nth_ext with (d := vzero) (d' := vzero); rewrite map_length, seq_length; [reflexivity|]. intros k Hk.
  rewrite nth_indep with (d' := at_ (pre ++ l ++ post) 0) by (rewrite map_length, seq_length; exact Hk).
  rewrite (map_nth (fun i => at_ (pre ++ l ++ post) i)), seq_nth by exact Hk. unfold at_.
  rewrite app_nth2 by lia. rewrite app_nth1 by lia. f_equal. lia.
Qed.
Lemma holes_esum f holes : forall pre, 
  esum (pull (pre ++ concat holes) f) (flat_map sides (holeRanges (length pre) holes)) =
  fold_right (fun l s => (walk f l + s)%Z) 0%Z (map (fun h => outline h true) holes).
Proof.
  induction holes as [|h holes IH]; intros pre; [reflexivity|]. destruct h as [|v h].
  - cbn [holeRanges concat map fold_right app]. rewrite IH. reflexivity.
  - set (g := v :: h). change (holeRanges (length pre) (g :: holes)) with (seq (length pre) (length g) :: holeRanges (length pre + length g) holes).
    cbn [flat_map map fold_right concat]. rewrite esum_app. rewrite app_assoc. rewrite <- app_length, IH, <- app_assoc.
    rewrite <- walk_sides, map_at_seq. reflexivity.
Qed.
(* the polygon and hole sizes *)
Definition total (edge : list vec) (holes : list (list vec)) : nat :=
  length edge + fold_right (fun h n => match h with [] => n | _ => length h + 2 + n end) 0 holes.
Lemma added_ranges holes : forall s, added (holeRanges s holes) = fold_right (fun h n => match h with [] => n | _ => length h + 2 + n end) 0 holes.
Proof.
  induction holes as [|h holes IH]; intros s; [reflexivity|]. destruct h as [|v h]; [apply IH|].
  change (holeRanges s ((v :: h) :: holes)) with (seq s (length (v :: h)) :: holeRanges (s + length (v :: h)) holes).
  cbn [added fold_right]. change (fold_right _ 0 (holeRanges _ holes)) with (added (holeRanges (s + length (v :: h)) holes)).
  rewrite IH, seq_length. reflexivity.
Qed.

(* no point has a direction to itself, and an edge whose two triangles have the
   same third corner is never flipped *)
Definition sane (pts : list vec) : Prop :=
  (forall i t, vnorm2D (vsub (at_ pts i) (at_ pts i)) <> Ok t) /\ (forall a b d, isDelaunay pts a b d d = true).
Lemma sane_distinct pts rounds rem ts : sane pts -> cutFresh rounds pts rem = Ok ts -> forall t, In t ts -> distinct3 t.
Proof.
  intros (S1 & _) H t Ht. apply in_split in Ht. destruct Ht as (l1 & l2 & ->).
  destruct (cutFresh_good pts rounds rem _ H l1 t l2 eq_refl) as (pr & i & e & _ & _ & E & <- & _).
  unfold earAt in E. apply bind_ok in E. destruct E as (ad & EA & E). apply bind_ok in E. destruct E as (bd & EB & E).
  apply bind_ok in E. destruct E as (cd & EC & E). okinv E. cbn [ear distinct3].
  split; [|split]; intros K; rewrite K in *; eapply S1; eassumption.
Qed.
Lemma flip_esum pts fuel sched ts r g : (forall i j, g i j = (- g j i)%Z) -> sane pts -> (forall t, In t ts -> distinct3 t) ->
  flipTriangles fuel sched pts ts = Ok r -> esum g (mesh_sides r) = esum g (mesh_sides ts) /\ length r = length ts /\ incl (mesh_verts r) (mesh_verts ts).
Proof.
  intros A (_ & SA) D H. unfold flipTriangles in H.
  apply (flipLoop_inv pts SA (fun st => esum g (mesh_sides (ftris st)) = esum g (mesh_sides ts) /\ length (ftris st) = length ts /\ incl (mesh_verts (ftris st)) (mesh_verts ts))) in H.
  - destruct H as (st & <- & _ & _ & K). exact K.
  - intros st k st' _ _ (K1 & K2 & K3) E. split; [|split].
    + rewrite <- K1. destruct E as [E1 E2 E3 _|a b c d i0 i1 t0 t1 -> L0 L1 NE B0 B1 N1 N2 N3 N4 N5 P0 P1 DE Q1 Q2 Q3 Q4 E1 E2 E3]; rewrite E1; [reflexivity|].
      pose proof (esum_perm g _ _ (flip_perm st a b c d i0 i1 t0 t1 NE B0 B1 P0 P1 Q1 Q3)) as F. rewrite !esum_app, !(esum_both g) in F by exact A. lia.
    + rewrite (effect_count _ _ _ _ E). exact K2.
    + intros v Hv. apply K3, (effect_verts _ _ _ _ E), Hv.
  - apply flipInit_sound, D.
  - split; [reflexivity|]. split; [reflexivity|apply incl_refl].
Qed.
Theorem triangulate_flux lt_inf fuel sched edge holes pts ts : 3 <= length edge ->
  uprightPoints edge (edge ++ concat holes) = Ok pts -> sane pts ->
  triangulate lt_inf fuel sched edge holes = Ok ts ->
  length ts <= total edge holes - 2 /\
  (forall t v, In t ts -> In v (corners t) -> In v (edge ++ concat holes)) /\
  (length ts = total edge holes - 2 -> forall f, is_weight f ->
     flux f ts = fold_right (fun l s => (walk f l + s)%Z) 0%Z (outline edge true :: map (fun h => outline h true) holes)).
Proof.
  intros L3 U SA H. unfold triangulate in H. rewrite U in H. cbn [bind] in H.
  apply bind_ok in H. destruct H as (poly & EM & H). apply bind_ok in H. destruct H as (ears & EC & H).
  apply bind_ok in H. destruct H as (fl & EF & H). apply Ok_inj in H.
  set (real := edge ++ concat holes) in *. change (map (toTri real) fl = ts) in H. subst ts. rewrite map_length.
  destruct (mergeHoles_sides lt_inf pts _ _ _ EM) as (br & B1 & B2 & B3 & B4 & B5).
  rewrite added_ranges, seq_length in B3. change (length poly = total edge holes) in B3.
  rewrite cutEars_fresh in EC. rewrite <- B3.
  assert (T3 : 3 <= length poly) by (rewrite B3; unfold total; lia).
  assert (D := sane_distinct pts _ _ _ SA EC).
  assert (FE := fun g A => flip_esum pts fuel sched ears fl g A SA D EF).
  assert (LF : length fl = length ears /\ incl (mesh_verts fl) (mesh_verts ears)) by (apply (FE (fun _ _ => 0%Z)); reflexivity).
  destruct LF as (LF & VF). destruct (cutFresh_sides pts (length poly - 2) poly ears ltac:(lia) EC) as (_ & _ & _ & _ & LE & _).
  split; [lia|]. split.
  - intros t v Ht Hv. apply in_map_iff in Ht. destruct Ht as ([[i j] k] & <- & Ht).
    assert (G : forall x, In x [i; j; k] -> x < length real).
    { intros x Hx. assert (In x (mesh_verts ears)) as K by (apply VF, in_flat_map; exists (i, j, k); split; [exact Ht|exact Hx]).
      apply (cutFresh_incl _ _ _ _ EC), B4 in K. destruct K as [K|K].
      - apply in_seq in K. unfold real. rewrite app_length. lia.
      - clear -K. unfold real. rewrite app_length.
        enough (Q : forall hs s, In x (concat (holeRanges s hs)) -> x < s + length (concat hs)) by (apply Q in K; exact K).
        clear. induction hs as [|h hs IH]; intros s H; [destruct H|]. destruct h as [|v h]; [apply (IH s H)|].
        change (holeRanges s ((v :: h) :: hs)) with (seq s (length (v :: h)) :: holeRanges (s + length (v :: h)) hs) in H.
        cbn [concat] in H |- *. rewrite app_length. apply in_app_or in H. destruct H as [H|H]; [apply in_seq in H; lia|apply IH in H; lia]. }
    cbn [toTri corners ta tb tc] in Hv. destruct Hv as [<-|[<-|[<-|[]]]]; apply nth_In, G; cbn; auto.
  - intros LL f Hf. rewrite flux_mesh.
    assert (A : forall i j, pull real f i j = (- pull real f j i)%Z) by (intros; apply Hf).
    rewrite (proj1 (FE _ A)). rewrite (esum_fills _ _ _ _ A (cutFresh_full pts (length poly - 2) poly ears ltac:(lia) ltac:(lia) EC ltac:(lia))).
    rewrite (esum_perm _ _ _ B2), !esum_app, (esum_both _ _ A). cbn [fold_right]. unfold real. rewrite holes_esum.
    rewrite <- walk_sides. pose proof (map_at_seq [] edge (concat holes)) as E. cbn [app length] in E. rewrite E. lia.
Qed.
Theorem triangulate_boundary lt_inf fuel sched edge holes pts ts : 3 <= length edge ->
  uprightPoints edge (edge ++ concat holes) = Ok pts -> sane pts ->
  triangulate lt_inf fuel sched edge holes = Ok ts ->
  length ts <= total edge holes - 2 /\
  (forall t v, In t ts -> In v (corners t) -> In v (edge ++ concat holes)) /\
  (length ts = total edge holes - 2 -> forall eqv, point_eq eqv -> bounds eqv ts (outline edge true :: map (fun h => outline h true) holes)).
Proof.
  intros L3 U SA H. destruct (triangulate_flux lt_inf fuel sched edge holes pts ts L3 U SA H) as (A & B & C).
  split; [exact A|]. split; [exact B|]. intros LL. apply bounds_of_flux. exact (C LL).
Qed.
End Whole.
