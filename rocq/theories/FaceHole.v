(** Merging holes: the directed sides of the merged polygon. *)
From Coq Require Import List Arith Permutation Lia Bool.
From Verif Require Import Num GeoModel EdgeModel FaceModel FaceSpec FaceComb.
Import ListNotations.
Open Scope nat_scope.

Section Hole.
Context {N : Num}.
Variable lt_inf : num -> bool.

Lemma foldM_inv {A B} (f : A -> B -> res A) (Q : A -> Prop) l : forall a r,
  Q a -> (forall a x a', In x l -> Q a -> f a x = Ok a' -> Q a') -> foldM f a l = Ok r -> Q r.
Proof.
  induction l as [|x l IH]; intros a r Qa S H; cbn in H; [okinv H; exact Qa|].
  apply bind_ok in H. destruct H as (a' & E & H). apply (IH a' r); [|intros; eapply S; eauto; right; assumption|exact H].
  eapply S; eauto. left; reflexivity.
Qed.
Lemma castRay_vis points poly a h : castRay lt_inf points poly a = Ok h ->
  match h with None => True | Some (_, _, v) => v < length poly end.
Proof.
  unfold castRay. apply (foldM_inv _ (fun h : hit => match h with None => True | Some (_, _, v) => v < length poly end)); [exact I|].
  intros h0 i h1 Hi Hh H. apply in_seq in Hi. assert (J : S i mod length poly < length poly) by (apply Nat.mod_upper_bound; lia).
  unfold rayStep in H.
  destruct (neqb (vy (at_ points (nth i poly 0))) (vy a) && neqb (vy a) (vy (at_ points (nth (S i mod length poly) poly 0)))).
  - destruct (_ && _); [|okinv H; exact Hh]. destruct (_ && _); [okinv H; cbn; lia|]. destruct (lt_bx _ _ _); okinv H; [exact J|exact Hh].
  - destruct (_ && _); [|okinv H; exact Hh]. apply bind_ok in H. destruct H as (d & _ & H).
    destruct (_ && _); [|okinv H; exact Hh]. okinv H. destruct (nltb _ _); [lia|exact J].
Qed.
Lemma findVisible_vis points poly a v : findVisible lt_inf points poly a = Ok v -> v < length poly.
Proof.
  unfold findVisible. intros H. apply bind_ok in H. destruct H as (h & C & H). apply castRay_vis in C.
  destruct h as [[[b c] vis]|]; [|discriminate]. destruct (veqb b c); [okinv H; exact C|].
  destruct (if nltb (vy c) (vy b) then (c, b) else (b, c)) as [b' c'].
  apply bind_ok in H. destruct H as (x & _ & H). apply bind_ok in H. destruct H as (y & _ & H).
  apply bind_ok in H. destruct H as (z & _ & H). okinv H.
  assert (G : forall l st, (forall i, In i l -> i < length poly) -> snd st < length poly ->
     snd (fold_left (betterStep lt_inf points poly a b' c' x y z) l st) < length poly).
  { induction l as [|i l IH]; intros st Hl Hs; [exact Hs|]. cbn [fold_left]. apply IH; [intros; apply Hl; right; assumption|].
    unfold betterStep. destruct (insideSearch _ _ _ _ _ _ _); [|exact Hs]. destruct (isReflex _ _ _); [|exact Hs].
    destruct (match fst st with None => _ | Some m => _ end); [cbn; apply Hl; left; reflexivity|exact Hs]. }
  apply G; [|exact C]. intros i Hi. apply in_seq in Hi. lia.
Qed.

Lemma hinsert_perm points h l : Permutation (hinsert points h l) (h :: l).
Proof.
  induction l as [|g l IH]; cbn; [reflexivity|]. destruct (vltb _ _); [reflexivity|]. rewrite IH. apply perm_swap.
Qed.
Lemma sortHoles_perm points l : Permutation (sortHoles points l) l.
Proof.
  unfold sortHoles. rewrite <- Permutation_rev. rewrite (Permutation_rev l) at 2.
  enough (G : forall l acc, Permutation (fold_left (fun acc h => hinsert points h acc) l acc) (l ++ acc)).
  { rewrite G, app_nil_r. reflexivity. }
  clear. induction l as [|h l IH]; intros acc; [reflexivity|]. cbn [fold_left]. rewrite IH, hinsert_perm.
  symmetry. apply Permutation_middle.
Qed.
Lemma rotateTo_perm points h : Permutation (rotateTo points h) h.
Proof. unfold rotateTo. rewrite Permutation_app_comm, firstn_skipn. reflexivity. Qed.
Lemma rotateTo_sides points h : Permutation (sides (rotateTo points h)) (sides h).
Proof. unfold rotateTo. rewrite sides_rot, firstn_skipn. reflexivity. Qed.

Definition added (hs : list (list nat)) : nat := fold_right (fun h n => length h + 2 + n) 0 hs.
Lemma added_perm h1 h2 : Permutation h1 h2 -> added h1 = added h2.
Proof. induction 1; unfold added in *; cbn [fold_right]; lia. Qed.
Lemma flat_sides_perm h1 h2 : Permutation h1 h2 -> Permutation (flat_map sides h1) (flat_map sides h2).
Proof. apply Permutation_flat_map. Qed.

Lemma splice_incl poly vis hole v : vis < length poly -> hole <> [] ->
  (In v (spliceHole poly vis hole) <-> In v poly \/ In v hole).
Proof.
  intros L H. unfold spliceHole. rewrite !in_app_iff. rewrite <- (firstn_skipn vis poly) at 4. rewrite in_app_iff. cbn.
  assert (In (nth vis poly 0) (skipn vis poly)).
  { rewrite (del_rot poly vis 0 L) at 2. rewrite skipn_app, firstn_length, (Nat.min_l vis) by lia.
    rewrite Nat.sub_diag. apply in_or_app. right. left. reflexivity. }
  assert (In (hd 0 hole) hole) by (destruct hole; [contradiction|left; reflexivity]).
  split; [|tauto]. intros [K|[[K|[]]|[K|[[K|[]]|K]]]]; subst; auto.
Qed.
Lemma Forall2_weaken {A B} (P Q : A -> B -> Prop) l1 l2 : (forall a b, P a b -> Q a b) -> Forall2 P l1 l2 -> Forall2 Q l1 l2.
Proof. intros H; induction 1; constructor; auto. Qed.
(* merging in the given order *)
Lemma merge_fold points hs : (forall h, In h hs -> h <> []) -> forall poly poly',
  foldM (mergeHole lt_inf points) poly hs = Ok poly' ->
  exists bridges, length bridges = length hs /\
    Permutation (sides poly') (sides poly ++ flat_map sides hs ++ both_ways bridges) /\
    length poly' = length poly + added hs /\
    (forall v, In v poly' <-> In v poly \/ In v (concat hs)) /\
    Forall2 (fun e h => In (fst e) (poly ++ concat hs) /\ snd e = hd 0 h) bridges hs.
Proof.
  induction hs as [|h hs IH]; intros NE poly poly' H; cbn [foldM] in H.
  - okinv H. exists []. cbn. rewrite !app_nil_r. repeat split; auto; try lia. tauto.
  - apply bind_ok in H. destruct H as (p1 & E & H). unfold mergeHole in E. apply bind_ok in E. destruct E as (vis & Ev & E).
    okinv E. apply findVisible_vis in Ev. assert (Hh : h <> []) by (apply NE; left; reflexivity).
    destruct (IH (fun g Hg => NE g (or_intror Hg)) _ _ H) as (br & B1 & B2 & B3 & B4 & B5).
    pose proof (splice_sides poly vis h Ev Hh) as S. rewrite splice_length in B3 by exact Ev.
    set (b := (nth vis poly 0, hd 0 h)) in *. exists (b :: br). split; [cbn; lia|]. split; [|split; [|split]].
    + rewrite B2, S. cbn [flat_map]. change (both_ways (b :: br)) with (both_ways [b] ++ both_ways br).
      rewrite <- !app_assoc. apply Permutation_app_head, Permutation_app_head.
      rewrite !app_assoc. apply Permutation_app_tail, Permutation_app_comm.
    + rewrite B3. cbn [added fold_right]. change (fold_right _ 0 hs) with (added hs). lia.
    + intros v. rewrite B4, splice_incl by assumption. cbn [concat]. rewrite in_app_iff. tauto.
    + constructor.
      * split; [|reflexivity]. cbn [fst b]. apply in_or_app. left. apply nth_In. exact Ev.
      * eapply Forall2_weaken; [|exact B5]. cbn beta. intros e g (K1 & K2). split; [|exact K2].
        apply in_app_or in K1. cbn [concat]. rewrite !in_app_iff. rewrite splice_incl in K1 by assumption. tauto.
Qed.
Lemma concat_perm {A} (l1 l2 : list (list A)) : Permutation l1 l2 -> Permutation (concat l1) (concat l2).
Proof.
  induction 1; cbn; auto.
  - apply Permutation_app_head; assumption.
  - rewrite !app_assoc. apply Permutation_app_tail, Permutation_app_comm.
  - etransitivity; eassumption.
Qed.
Theorem mergeHoles_sides points poly holes poly' : mergeHoles lt_inf points poly holes = Ok poly' ->
  exists bridges, length bridges = length holes /\
    Permutation (sides poly') (sides poly ++ flat_map sides holes ++ both_ways bridges) /\
    length poly' = length poly + added holes /\
    (forall v, In v poly' <-> In v poly \/ In v (concat holes)) /\
    (forall e, In e bridges -> In (fst e) (poly ++ concat holes) /\ In (snd e) (concat holes)).
Proof.
  unfold mergeHoles. destruct (existsb _ holes) eqn:X; [discriminate|]. intros H.
  assert (NE : forall h, In h holes -> h <> []).
  { intros h Hh ->. assert (K : existsb (fun h : list nat => match h with [] => true | _ => false end) holes = true).
    { apply existsb_exists. exists []. auto. } congruence. }
  set (hs := sortHoles points (map (rotateTo points) holes)) in *.
  assert (PH : Permutation hs (map (rotateTo points) holes)) by apply sortHoles_perm.
  assert (NE' : forall h, In h hs -> h <> []).
  { intros h Hh. apply (Permutation_in _ PH) in Hh. apply in_map_iff in Hh. destruct Hh as (g & <- & Hg) .
    intros C. apply (NE g Hg). apply Permutation_nil. rewrite <- C. apply rotateTo_perm. }
  destruct (merge_fold points hs NE' _ _ H) as (br & B1 & B2 & B3 & B4 & B5).
  assert (CP : Permutation (concat hs) (concat holes)).
  { rewrite (concat_perm _ _ PH). clear. induction holes as [|h l IH]; [reflexivity|]. cbn. rewrite rotateTo_perm, IH. reflexivity. }
  exists br. split; [|split; [|split; [|split]]].
  - rewrite B1, (Permutation_length PH), map_length. reflexivity.
  - rewrite B2. apply Permutation_app_head, Permutation_app_tail. rewrite (flat_sides_perm _ _ PH).
    clear. induction holes as [|h l IH]; [reflexivity|]. cbn. rewrite rotateTo_sides, IH. reflexivity.
  - rewrite B3. f_equal. rewrite (added_perm _ _ PH). clear. induction holes as [|h l IH]; [reflexivity|].
    unfold added in *. cbn [map fold_right]. rewrite IH, (Permutation_length (rotateTo_perm points h)). reflexivity.
  - intros v. rewrite B4. split; (intros [K|K]; [left; exact K|right]).
    + apply (Permutation_in _ CP), K.
    + apply (Permutation_in _ (Permutation_sym CP)), K.
  - intros e He. assert (K : exists h, In h hs /\ In (fst e) (poly ++ concat hs) /\ snd e = hd 0 h).
    { clear -B5 He. revert B5 He. generalize (poly ++ concat hs). intros L F. induction F as [|x y l l' [A1 A2] F IH]; intros He; [destruct He|].
      destruct He as [<-|He]; [exists y; cbn; auto|]. destruct (IH He) as (h & K1 & K2). exists h. cbn; auto. }
    destruct K as (h & K1 & K2 & K3). split.
    + apply in_app_or in K2. apply in_or_app. destruct K2 as [K2|K2]; [auto|right]. apply (Permutation_in _ CP), K2.
    + apply (Permutation_in _ CP). apply in_concat. exists h. split; [exact K1|]. rewrite K3. specialize (NE' h K1). destruct h; [contradiction|left; reflexivity].
Qed.
End Hole.
