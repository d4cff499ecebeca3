(** The two keys next to the middle of the back wall. *)
From Coq Require Import Reals Lra Psatz List Bool ZArith Lia Permutation Sorted.
From Verif Require Import Num GeoModel GeoSpec GeoMat GeoRigid GeoPlane GeoIso EdgeModel
  KeyModel LayoutModel LayoutProof BossModel PlanModel HullSpec PlanSpec WallProof BossFit2.
Import ListNotations.
Open Scope R_scope.

Lemma insert_perm (x : @num Rnum * nat) l : Permutation (x :: l) (pairInsert x l).
Proof.
  induction l as [|y l IH]; [reflexivity|]. cbn [pairInsert]. destruct (pairLt x y); [reflexivity|].
  etransitivity; [apply Permutation.perm_swap|]. constructor. exact IH.
Qed.
Lemma sort_perm (l : list (@num Rnum * nat)) : Permutation l (pairSort l).
Proof.
  unfold pairSort. assert (K : forall l acc, Permutation (acc ++ l) (fold_left (fun acc x => pairInsert x acc) l acc)).
  { clear l. induction l as [|x l IH]; intros acc; cbn [fold_left]; [rewrite app_nil_r; reflexivity|].
    rewrite <- IH. rewrite <- insert_perm. cbn [app]. symmetry. apply Permutation_middle. }
  apply (K l []).
Qed.
Definition leD (a b : @num Rnum * nat) : Prop := (fst a : R) <= fst b.
Lemma pairLt_true a b : @pairLt Rnum a b = true -> leD a b.
Proof.
  unfold pairLt, leD. destruct (neqb (fst a) (fst b)) eqn:E; [apply Reqb_true in E; rewrite E; lra|]. intros H. apply Rltb_true in H. rn. lra.
Qed.
Lemma pairLt_false a b : @pairLt Rnum a b = false -> leD b a.
Proof.
  unfold pairLt, leD. destruct (neqb (fst a) (fst b)) eqn:E; [apply Reqb_true in E; rewrite E; lra|]. intros H. apply Rltb_false in H. rn. lra.
Qed.
Lemma insert_sorted x l : StronglySorted leD l -> StronglySorted leD (@pairInsert Rnum x l).
Proof.
  induction 1 as [|y l S IH F]; cbn [pairInsert]; [constructor; constructor|]. destruct (pairLt x y) eqn:E.
  - apply pairLt_true in E. constructor; [constructor; assumption|]. constructor; [exact E|]. rewrite Forall_forall in *. intros z Hz. specialize (F z Hz). unfold leD in *. lra.
  - apply pairLt_false in E. constructor; [exact IH|]. rewrite Forall_forall in *. intros z Hz. eapply Permutation_in in Hz; [|symmetry; apply insert_perm]. destruct Hz as [<-|Hz]; auto.
Qed.
Lemma sort_sorted (l : list (@num Rnum * nat)) : StronglySorted leD (pairSort l).
Proof.
  unfold pairSort. assert (K : forall l acc, StronglySorted leD acc -> StronglySorted leD (fold_left (fun acc x => pairInsert x acc) l acc)).
  { clear l. induction l as [|x l IH]; intros acc S; cbn [fold_left]; [exact S|]. apply IH, insert_sorted, S. }
  apply K. constructor.
Qed.
Lemma combine_seq_in {A} (l : list A) : forall a d i, In (d, i) (combine l (seq a (length l))) -> (a <= i)%nat /\ nth_error l (i - a) = Some d.
Proof.
  induction l as [|x l IH]; intros a d i H; [destruct H|]. cbn [length seq combine] in H. destruct H as [H|H].
  - injection H as <- <-. split; [lia|]. rewrite Nat.sub_diag. reflexivity.
  - apply IH in H. destruct H as (L & H). split; [lia|]. replace (i - a)%nat with (S (i - S a)) by lia. exact H.
Qed.
Lemma combine_seq_all {A} (l : list A) i d : nth_error l i = Some d -> In (d, i) (combine l (seq 0 (length l))).
Proof.
  enough (K : forall l a i, nth_error l i = Some d -> In (d, (a + i)%nat) (combine l (seq a (length l)))) by (intros H; apply (K l 0%nat i H)).
  clear l i. induction l as [|x l IH]; intros a i H; [destruct i; discriminate|]. cbn [length seq combine]. destruct i as [|i].
  - injection H as <-. rewrite Nat.add_0_r. left; reflexivity.
  - right. rewrite Nat.add_succ_r. apply (IH (S a)). exact H.
Qed.
Lemma combine_seq_nodup {A} (l : list A) a : NoDup (map snd (combine l (seq a (length l)))).
Proof.
  revert a. induction l as [|x l IH]; intros a; cbn [length seq combine map]; constructor; [|apply IH].
  intros H. apply in_map_iff in H. destruct H as ((d, i) & E & H). cbn in E. apply combine_seq_in in H. lia.
Qed.

(* the squared distance of the middle to the point where the axis of a key, extended to the back, meets the plane *)
Definition back_dist (planeB : @plane Rnum) (middle : pt) (k : @key Rnum) (d : R) : Prop :=
  let o := transformed (P 0 0 0) (kmatrix k) in let back := transformed (P 0 1 0) (kmatrix k) in
  exists t, let x := plus o (scaled t (minus back o)) in on_plane planeB x /\ d = sqdist middle x.
Lemma nth_error_Forall2 {A B} (Q : A -> B -> Prop) l m i b : Forall2 Q l m -> nth_error m i = Some b -> exists a, nth_error l i = Some a /\ Q a b.
Proof. intros F. revert i. induction F; intros [|i] H0; try discriminate; cbn in *; [injection H0 as <-; eauto|eauto]. Qed.
Lemma nth_error_Forall2' {A B} (Q : A -> B -> Prop) l m i a : Forall2 Q l m -> nth_error l i = Some a -> exists b, nth_error m i = Some b /\ Q a b.
Proof. intros F. revert i. induction F; intros [|i] H0; try discriminate; cbn in *; [injection H0 as <-; eauto|eauto]. Qed.
Lemma pyidx_of_nat {A} (l : list A) n x : pyidx l (Z.of_nat n) = Ok x -> nth_error l n = Some x.
Proof.
  unfold pyidx. destruct (Z.of_nat n <? 0)%Z eqn:E; [apply Z.ltb_lt in E; lia|]. cbv zeta. rewrite E, Nat2Z.id. destruct (nth_error l n); congruence.
Qed.

Theorem alnumBossKeys_spec keys pL pR pB pT ks : (forall k, In k keys -> Built (kmatrix k)) -> alnumBossKeys keys pL pR pB pT = Ok ks ->
  exists cornerL cornerR,
    on_plane pL cornerL /\ on_plane pB cornerL /\ on_plane pT cornerL /\ on_plane pR cornerR /\ on_plane pB cornerR /\ on_plane pT cornerR /\
    let dist := back_dist pB (P ((X cornerL + X cornerR) / 2) ((Y cornerL + Y cornerR) / 2) ((Z cornerL + Z cornerR) / 2)) in
    forall k0 k1 rest, ks = k0 :: k1 :: rest -> rest = [] /\
    exists i j d0 d1, i <> j /\ nth_error keys i = Some k0 /\ nth_error keys j = Some k1 /\ dist k0 d0 /\ dist k1 d1 /\ d0 <= d1 /\
      forall m k, m <> i -> m <> j -> nth_error keys m = Some k -> exists d, dist k d /\ d1 <= d.
Proof.
  intros B H. unfold alnumBossKeys in H. apply bind_ok in H. destruct H as (cl & EL & H). apply bind_ok in H. destruct H as (cr & ER & H).
  destruct (pintersectPlanes_sound _ _ _ _ EL) as (L1 & L2 & L3). destruct (pintersectPlanes_sound _ _ _ _ ER) as (R1 & R2 & R3).
  cbv zeta in H. apply bind_ok in H. destruct H as (ds & ED & H).
  exists cl, cr. split; [exact L1|]. split; [exact L2|]. split; [exact L3|]. split; [exact R1|]. split; [exact R2|]. split; [exact R3|].
  cbv zeta. set (md := P ((X cl + X cr) / 2) _ _).
  assert (F : Forall2 (fun k d => back_dist pB md k d) keys ds).
  { apply mapM_ok in ED. assert (BF : Forall (fun k => Built (kmatrix k)) keys) by (apply Forall_forall; exact B). clear -ED BF.
    induction ED as [|k d keys ds E ED IH]; [constructor|]. inversion BF as [|? ? Bk BF']; subst. constructor; [|apply IH; assumption].
    apply bind_ok in E. destruct E as (l & El & E). apply bind_ok in E. destruct E as (x & Ex & E). apply Ok_inj in E. 
    destruct (keyLine_form k Bk) as (l' & El' & _ & E1 & E2). rewrite El in El'. apply Ok_inj in El'. subst l'.
    destruct (pintersectLine_sound pB l x Ex) as (Q1 & (t & Q2)). exists t. rewrite <- E1 in *. rewrite <- E2. rewrite <- Q2.
    split; [exact Q1|]. rewrite <- E. clear. unfold md, sqdist, Rsqr, P, X, Y, Z, vmag2, vsub, vhalf, vadd. cbn [vx vy vz]. unfold vdot. cbn [vx vy vz]. rn. reflexivity. }
  set (best := pairSort (combine ds (seq 0 (length ds)))) in H.
  pose proof (sort_perm (combine ds (seq 0 (length ds)))) as PM. pose proof (sort_sorted (combine ds (seq 0 (length ds)))) as SS. fold best in PM, SS.
  assert (ND : NoDup (map snd best)) by (eapply Permutation_NoDup; [apply Permutation_map, PM|apply combine_seq_nodup]).
  assert (IN : forall d i, In (d, i) best -> nth_error ds i = Some d).
  { intros d i Hi. eapply Permutation_in in Hi; [|symmetry; exact PM]. apply combine_seq_in in Hi. rewrite Nat.sub_0_r in Hi. apply Hi. }
  clearbody best. intros k0 k1 rest ->. destruct best as [|(d0, i) [|(d1, j) best]]; cbn [firstn mapM] in H; [discriminate| |].
  { apply bind_ok in H. destruct H as (? & _ & H). discriminate. }
  apply bind_ok in H. destruct H as (k0' & E0 & H). apply bind_ok in H. destruct H as (ks' & H1 & H). apply bind_ok in H1. destruct H1 as (k1' & E1 & H1). cbn [bind] in H1. injection H1 as <-. injection H as <- <- <-.
  split; [reflexivity|]. cbn [snd] in E0, E1. apply pyidx_of_nat in E0, E1.
  exists i, j, d0, d1. cbn [map snd] in ND. inversion ND as [|? ? N1 N2]; subst.
  destruct (nth_error_Forall2 _ _ _ i d0 F (IN d0 i (or_introl eq_refl))) as (a0 & A0 & Q0). rewrite E0 in A0. injection A0 as <-.
  destruct (nth_error_Forall2 _ _ _ j d1 F (IN d1 j (or_intror (or_introl eq_refl)))) as (a1 & A1 & Q1). rewrite E1 in A1. injection A1 as <-.
  split; [intros ->; apply N1; left; reflexivity|]. split; [exact E0|]. split; [exact E1|]. split; [exact Q0|]. split; [exact Q1|].
  inversion SS as [|? ? S1 S2]; subst. split; [inversion S2; subst; assumption|].
  intros m k Mi Mj Hk. destruct (nth_error_Forall2' _ _ _ m k F Hk) as (d & Hd & Q). exists d. split; [exact Q|].
  pose proof (combine_seq_all ds m d Hd) as Hm. eapply Permutation_in in Hm; [|exact PM]. destruct Hm as [Hm|[Hm|Hm]]; [injection Hm as _ <-; contradiction|injection Hm as _ <-; contradiction|].
  inversion S1 as [|? ? S3 S4]; subst. rewrite Forall_forall in S4. apply (S4 _ Hm).
Qed.
