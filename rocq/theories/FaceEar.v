(** Ear clipping over the reals: what an accepted ear looks like, when clipping
    completes, and a class of polygons for which it finds nothing. *)
From Coq Require Import Reals Lra Psatz ZArith List Permutation Lia Arith Bool.
From Verif Require Import Num GeoModel EdgeModel FaceModel GeoSpec GeoMat GeoCirc EdgeSpecR FaceSpec FaceSpecR FaceComb FaceCut FaceFlip.
Import ListNotations.
Open Scope R_scope.

Section EarR.
Variable pts : list pt.
Notation p_ i := (at_ pts i).

Definition apart (p q : pt) : Prop := X p <> X q \/ Y p <> Y q.
Lemma edist2_len (u v : pt) : edist2 u v = len2 (vsub v u).
Proof. unfold edist2, sqdist2, len2, Rsqr. f_equal. unfold X, Y. cbn. rn. ring. Qed.
Lemma edist2_sym (u v : pt) : edist2 u v = edist2 v u.
Proof. unfold edist2, sqdist2, Rsqr. f_equal. ring. Qed.
Lemma edist2_nonneg (u v : pt) : 0 <= edist2 u v. Proof. apply sqrt_pos. Qed.
Lemma norm_dir (u v d : pt) : vnorm2D (vsub v u) = Ok d -> apart u v /\ 0 < edist2 u v /\
  X d * edist2 u v = X v - X u /\ Y d * edist2 u v = Y v - Y u.
Proof.
  intros H. assert (A : apart u v).
  { unfold apart. destruct (Req_dec (X u) (X v)) as [E1|]; [|auto]. destruct (Req_dec (Y u) (Y v)) as [E2|]; [|auto].
    rewrite vnorm2D_err in H; [discriminate| |]; unfold X, Y in *; cbn; rn; lra. }
  split; [exact A|]. destruct (vnorm2D_ok (vsub v u)) as (E & _ & L); [unfold apart, X, Y in *; cbn; rn; lra|].
  rewrite E in H. apply Ok_inj in H. rewrite <- H, edist2_len. split; [exact L|].
  change (X (P (X (vsub v u) / len2 (vsub v u)) (Y (vsub v u) / len2 (vsub v u)) 0)) with (X (vsub v u) / len2 (vsub v u)).
  change (Y (P (X (vsub v u) / len2 (vsub v u)) (Y (vsub v u) / len2 (vsub v u)) 0)) with (Y (vsub v u) / len2 (vsub v u)).
  split; field_simplify; try lra; unfold X, Y; cbn; rn; lra.
Qed.
(* the test value is the distance from the side, scaled *)
Lemma dir_side (u v d w : pt) : vnorm2D (vsub v u) = Ok d ->
  (Y d * X w - X d * Y w < Y d * X u - X d * Y u + 1 / 1000000 <-> - eps * edist2 u v < side u v w).
Proof.
  intros H. destruct (norm_dir u v d H) as (_ & L & E1 & E2). unfold side. rewrite <- E1, <- E2. set (m := edist2 u v) in *. clearbody m.
  unfold eps. replace (X d * m * (Y w - Y u) - Y d * m * (X w - X u)) with (m * (X d * (Y w - Y u) - Y d * (X w - X u))) by ring.
  split; intros K.
  - assert (- (1 / 1000000) < X d * (Y w - Y u) - Y d * (X w - X u)) by lra.
    rewrite (Rmult_comm _ m). apply Rmult_lt_compat_l; [exact L|lra].
  - rewrite (Rmult_comm _ m) in K. apply Rmult_lt_reg_l in K; [lra|exact L].
Qed.
(* what the tests of an ear mean *)
Lemma earAt_R rem i e : earAt pts rem i = Ok e -> let '(a, b, c) := ear e in
  apart (p_ a) (p_ b) /\ apart (p_ b) (p_ c) /\ apart (p_ c) (p_ a) /\
  (negb (eHeight e <? nZ 0)%num = true <-> - eps * edist2 (p_ c) (p_ a) <= side (p_ a) (p_ b) (p_ c)) /\
  (forall j, blocks pts e j = true <->
     - eps * edist2 (p_ c) (p_ a) < side (p_ c) (p_ a) (p_ j) /\
     - eps * edist2 (p_ b) (p_ c) < side (p_ b) (p_ c) (p_ j) /\
     - eps * edist2 (p_ a) (p_ b) < side (p_ a) (p_ b) (p_ j)).
Proof.
  unfold earAt. set (n := length rem). set (a := nth ((i + n - 1) mod n) rem 0%nat). set (b := nth i rem 0%nat). set (c := nth (S i mod n) rem 0%nat).
  intros H. apply bind_ok in H. destruct H as (ad & EA & H). apply bind_ok in H. destruct H as (bd & EB & H).
  apply bind_ok in H. destruct H as (cd & EC & H). okinv H. cbn [ear].
  split; [apply (norm_dir _ _ _ EA)|]. split; [apply (norm_dir _ _ _ EB)|]. split; [apply (norm_dir _ _ _ EC)|]. split.
  - cbn [eHeight]. rn. rewrite negb_true_iff, Rltb_false.
    destruct (norm_dir _ _ _ EC) as (_ & L & E1 & E2). set (m := edist2 (p_ c) (p_ a)) in *.
    assert (SE : side (p_ a) (p_ b) (p_ c) = m * (X cd * (Y (p_ b) - Y (p_ c)) - Y cd * (X (p_ b) - X (p_ c)))).
    { transitivity ((X (p_ a) - X (p_ c)) * (Y (p_ b) - Y (p_ c)) - (Y (p_ a) - Y (p_ c)) * (X (p_ b) - X (p_ c))); [unfold side; ring|].
      rewrite <- E1, <- E2. ring. }
    rewrite SE. clearbody m. unfold eps. fold (X cd) (Y cd) (X (p_ a)) (Y (p_ a)) (X (p_ b)) (Y (p_ b)) (X (p_ c)) (Y (p_ c)).
    split; intros K.
    + rewrite (Rmult_comm _ m). apply Rmult_le_compat_l; [lra|]. lra.
    + rewrite (Rmult_comm _ m) in K. apply Rmult_le_reg_l in K; [lra|exact L].
  - intros j. unfold blocks. cbn [ecDir ebDir eaDir ecDot ebDot eaDot]. rn. rewrite !andb_true_iff, !Rltb_true, and_assoc.
    rewrite <- (dir_side _ _ _ (p_ j) EA), <- (dir_side _ _ _ (p_ j) EB), <- (dir_side _ _ _ (p_ j) EC). reflexivity.
Qed.
Lemma apart_neq i j : apart (p_ i) (p_ j) -> i <> j.
Proof. intros [H|H] ->; apply H; reflexivity. Qed.
Lemma ear_distinct rem i e : earAt pts rem i = Ok e -> distinct3 (ear e).
Proof.
  intros H. apply earAt_R in H. destruct (ear e) as [[a b] c]. destruct H as (A1 & A2 & A3 & _).
  apply apart_neq in A1, A2, A3. cbn. auto.
Qed.
Lemma earAt_ok rem i : let n := length rem in let a := nth ((i + n - 1) mod n) rem 0%nat in let b := nth i rem 0%nat in let c := nth (S i mod n) rem 0%nat in
  apart (p_ a) (p_ b) -> apart (p_ b) (p_ c) -> apart (p_ c) (p_ a) -> exists e, earAt pts rem i = Ok e.
Proof.
  intros n a b c A1 A2 A3. unfold earAt. fold n. fold a b c.
  destruct (vnorm2D_ok (vsub (p_ b) (p_ a))) as (-> & _); [unfold apart, X, Y in *; cbn; rn; lra|].
  destruct (vnorm2D_ok (vsub (p_ c) (p_ b))) as (-> & _); [unfold apart, X, Y in *; cbn; rn; lra|].
  destruct (vnorm2D_ok (vsub (p_ a) (p_ c))) as (-> & _); [unfold apart, X, Y in *; cbn; rn; lra|].
  cbn [bind]. eauto.
Qed.
Lemma cutFresh_distinct rounds : forall rem ts, cutFresh rounds pts rem = Ok ts -> forall t, In t ts -> distinct3 t.
Proof.
  intros rem ts H t Ht. apply in_split in Ht. destruct Ht as (l1 & l2 & ->).
  destruct (cutFresh_good pts rounds rem _ H l1 t l2 eq_refl) as (pr & i & e & _ & _ & E & <- & _). apply (ear_distinct _ _ _ E).
Qed.

(** ** polygons smaller than the tolerance get no ears *)
Lemma cs (u v w : pt) : Rabs (side u v w) <= edist2 u v * edist2 u w.
Proof.
  unfold edist2. rewrite <- sqrt_mult_alt by (unfold sqdist2; pose proof (Rle_0_sqr (X u - X v)); pose proof (Rle_0_sqr (Y u - Y v)); lra).
  rewrite <- sqrt_Rsqr_abs. apply sqrt_le_1_alt. unfold sqdist2, side, Rsqr.
  set (a := X v - X u). set (b := Y v - Y u). set (c := X w - X u). set (d := Y w - Y u).
  replace (X u - X v) with (- a) by (unfold a; ring). replace (Y u - Y v) with (- b) by (unfold b; ring).
  replace (X u - X w) with (- c) by (unfold c; ring). replace (Y u - Y w) with (- d) by (unfold d; ring).
  pose proof (Rle_0_sqr (a * c + b * d)) as K. unfold Rsqr in K. lra.
Qed.
Lemma tiny_side (u v w : pt) : 0 < edist2 u v -> edist2 u w < eps -> - eps * edist2 u v < side u v w.
Proof.
  intros L H. pose proof (cs u v w) as K. pose proof (Rle_abs (- side u v w)) as A. rewrite Rabs_Ropp in A.
  assert (edist2 u v * edist2 u w < edist2 u v * eps) by (apply Rmult_lt_compat_l; assumption). lra.
Qed.
Lemma tiny_search rem is_ : NoDup rem -> (4 <= length rem)%nat ->
  (forall i j, In i rem -> In j rem -> edist2 (p_ i) (p_ j) < eps) -> (forall i, In i is_ -> (i < length rem)%nat) ->
  forall r, searchFresh pts rem is_ = Ok r -> r = None.
Proof.
  intros ND L T. induction is_ as [|i is_ IH]; intros B r H; cbn [searchFresh] in H; [okinv H; reflexivity|].
  apply bind_ok in H. destruct H as (e & E & H).
  assert (IN : incl (tri_verts (ear e)) rem) by (apply (search_ear_in pts rem i e E); apply B; left; reflexivity).
  pose proof (earAt_R _ _ _ E) as R. destruct (ear e) as [[a b] c] eqn:EE. cbn in IN.
  destruct R as (A1 & A2 & A3 & _ & R).
  destruct (goodEar pts rem e) eqn:G; [|apply (IH (fun k Hk => B k (or_intror Hk)) r H)].
  exfalso. unfold goodEar in G. apply andb_prop in G. destruct G as [_ G]. apply negb_true_iff in G.
  assert (J : exists j, In j rem /\ ~ In j [a; b; c]).
  { destruct (Forall_dec (fun j => In j [a; b; c]) (fun j => in_dec Nat.eq_dec j [a; b; c]) rem) as [F|F].
    - exfalso. assert (length rem <= 3)%nat; [|lia]. apply (NoDup_incl_length ND (l' := [a; b; c])). rewrite Forall_forall in F. exact F.
    - apply neg_Forall_Exists_neg in F; [|intros; apply in_dec, Nat.eq_dec]. apply Exists_exists in F. exact F. }
  destruct J as (j & Hj & NJ).
  assert (K : existsb (fun j => negb (inEar j (ear e)) && blocks pts e j) rem = true); [|congruence].
  apply existsb_exists. exists j. split; [exact Hj|]. apply andb_true_iff. split.
  - rewrite EE. cbn. cbn in NJ. destruct (Nat.eqb_spec j a); [subst; exfalso; apply NJ; auto|]. destruct (Nat.eqb_spec j b); [subst; exfalso; apply NJ; auto|].
    destruct (Nat.eqb_spec j c); [subst; exfalso; apply NJ; auto|]. reflexivity.
  - assert (POS : forall u v, apart u v -> 0 < edist2 u v).
    { intros u v A. unfold edist2, sqdist2, Rsqr. apply sqrt_lt_R0. unfold apart in A.
      pose proof (Rle_0_sqr (X u - X v)) as Q1. pose proof (Rle_0_sqr (Y u - Y v)) as Q2.
      destruct A as [A|A]; [assert (A' : X u - X v <> 0) by lra|assert (A' : Y u - Y v <> 0) by lra];
        pose proof (Rsqr_pos_lt _ A') as Q3; unfold Rsqr in *; lra. }
    apply R. split; [|split]; apply tiny_side; auto; apply T; auto; apply IN; cbn; auto.
Qed.
Theorem tiny_no_ears poly ts : NoDup poly -> (4 <= length poly)%nat ->
  (forall i j, In i poly -> In j poly -> edist2 (p_ i) (p_ j) < eps) -> cutEars pts poly = Ok ts -> ts = [].
Proof.
  intros ND L T. rewrite cutEars_fresh. generalize (length poly - 2)%nat. intros rounds. revert ts.
  induction rounds as [|rounds IH]; intros ts H; cbn [cutFresh] in H; [okinv H; reflexivity|].
  apply bind_ok in H. destruct H as (r & E & H).
  rewrite (tiny_search poly (seq 0 (length poly)) ND L T (fun i Hi => proj2 (proj1 (in_seq _ _ _) Hi)) r E) in H. apply IH, H.
Qed.

(** ** fat convex polygons are cut completely *)
(* every three vertices in polygon order turn left, and each is at least the
   tolerance away from the line through the other two *)
Definition fat_convex (poly : list nat) : Prop :=
  forall i j k, (i < j < k)%nat -> (k < length poly)%nat ->
    let a := p_ (nth i poly 0%nat) in let b := p_ (nth j poly 0%nat) in let c := p_ (nth k poly 0%nat) in
    0 < side a b c /\ eps * edist2 a b <= side a b c /\ eps * edist2 b c <= side a b c /\ eps * edist2 a c <= side a b c.
Lemma fat_tail v poly : fat_convex (v :: poly) -> fat_convex poly.
Proof. intros H i j k L K. apply (H (S i) (S j) (S k)); cbn; lia. Qed.
Lemma apart_side a b c : 0 < side a b c -> apart a b /\ apart b c /\ apart c a.
Proof.
  unfold side, apart. intros H. split; [|split].
  - destruct (Req_dec (X a) (X b)) as [E1|]; [|auto]. destruct (Req_dec (Y a) (Y b)) as [E2|]; [|auto]. rewrite E1, E2 in H. lra.
  - destruct (Req_dec (X b) (X c)) as [E1|]; [|auto]. destruct (Req_dec (Y b) (Y c)) as [E2|]; [|auto]. rewrite E1, E2 in H. lra.
  - destruct (Req_dec (X c) (X a)) as [E1|]; [|auto]. destruct (Req_dec (Y c) (Y a)) as [E2|]; [|auto]. rewrite E1, E2 in H. lra.
Qed.
Lemma fat_first poly : fat_convex poly -> (3 <= length poly)%nat ->
  exists t, searchFresh pts poly (seq 0 (length poly)) = Ok (Some (0%nat, t)) /\ 0 < area2 pts t.
Proof.
  intros F L. set (n := length poly) in *. assert (SQ : seq 0 n = 0%nat :: seq 1 (n - 1)) by (destruct n; [lia|cbn; rewrite Nat.sub_0_r; reflexivity]).
  rewrite SQ. cbn [searchFresh].
  assert (M1 : ((0 + n - 1) mod n = n - 1)%nat) by (apply Nat.mod_small; lia). assert (M2 : (1 mod n = 1)%nat) by (apply Nat.mod_small; lia).
  set (a := nth (n - 1) poly 0%nat). set (b := nth 0 poly 0%nat). set (c := nth 1 poly 0%nat).
  destruct (F 0%nat 1%nat (n - 1)%nat ltac:(lia) ltac:(lia)) as (S0 & _). fold a b c in S0.
  destruct (apart_side _ _ _ S0) as (A1 & A2 & A3).
  destruct (earAt_ok poly 0) as (e & E); fold n; rewrite ?M1, ?M2; fold a b c; auto.
  rewrite E. cbn [bind]. pose proof (earAt_R _ _ _ E) as R. rewrite (earAt_ear _ _ _ _ E) in R |- *. fold n in R |- *. rewrite M1, M2 in R |- *. fold a b c in R |- *.
  destruct R as (_ & _ & _ & RH & RB).
  assert (S1 : side (p_ a) (p_ b) (p_ c) = side (p_ b) (p_ c) (p_ a)) by (unfold side; ring).
  assert (G : goodEar pts poly e = true).
  { unfold goodEar. apply andb_true_iff. split.
    - apply RH. rewrite S1. pose proof (edist2_nonneg (p_ c) (p_ a)). assert (0 <= eps * edist2 (p_ c) (p_ a)) by (apply Rmult_le_pos; [unfold eps; lra|assumption]). lra.
    - apply negb_true_iff. destruct (existsb _ poly) eqn:Q; [|reflexivity]. exfalso.
      apply existsb_exists in Q. destruct Q as (j & Hj & Q). apply andb_prop in Q. destruct Q as [Q1 Q2]. apply RB in Q2. destruct Q2 as (Q2 & _ & _).
      apply negb_true_iff in Q1. rewrite (earAt_ear _ _ _ _ E) in Q1. fold n in Q1. rewrite M1, M2 in Q1. fold a b c in Q1.
      destruct (In_nth _ _ 0%nat Hj) as (k & Lk & Ek). fold n in Lk.
      assert (k <> 0 /\ k <> 1 /\ k <> n - 1)%nat as (K0 & K1 & K2).
      { unfold inEar in Q1. apply orb_false_iff in Q1. destruct Q1 as [Q1 Q3]. apply orb_false_iff in Q1. destruct Q1 as [Q1 Q4].
        apply Nat.eqb_neq in Q1, Q3, Q4. split; [|split]; intros ->; [apply Q4|apply Q3|apply Q1]; symmetry; exact Ek. }
      destruct (F 1%nat k (n - 1)%nat ltac:(lia) ltac:(lia)) as (_ & _ & _ & F4). rewrite Ek in F4. fold a c in F4.
      assert (side (p_ c) (p_ a) (p_ j) = - side (p_ c) (p_ j) (p_ a)) by (unfold side; ring). lra. }
  rewrite G. eexists. split; [reflexivity|]. cbn. rewrite S1. exact S0.
Qed.
Theorem fat_complete poly : fat_convex poly -> exists ts, cutEars pts poly = Ok ts /\ length ts = (length poly - 2)%nat /\ forall t, In t ts -> 0 < area2 pts t.
Proof.
  intros F. rewrite cutEars_fresh. remember (length poly - 2)%nat as rounds eqn:ER. revert poly F ER.
  induction rounds as [|rounds IH]; intros poly F ER; cbn [cutFresh]; [exists []; cbn; repeat split; auto; intros ? []|].
  destruct (fat_first poly F ltac:(lia)) as (t & E & A). rewrite E. cbn [bind].
  destruct poly as [|v poly]; [cbn in ER; lia|].
  destruct (IH poly (fat_tail v poly F) ltac:(cbn in ER; lia)) as (ts & E2 & L & AA). change (del (v :: poly) 0) with poly. rewrite E2. cbn [bind].
  eexists. split; [reflexivity|]. split; [cbn; lia|]. intros u [<-|Hu]; auto.
Qed.
End EarR.
