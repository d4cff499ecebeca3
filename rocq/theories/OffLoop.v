(** The whole of _naiveOffset2D: what is left has no crossings. *)
From Coq Require Import Reals Lra Psatz ZArith List Bool Arith Lia.
From Verif Require Import Num GeoModel EdgeModel GeoSpec GeoMat GeoFig GeoCirc EdgeSpecR EdgeReal ArcModel FloorModel PolySpec OffSpec OffProof OffCut.
Import ListNotations.
Open Scope R_scope.

Definition flat_seg (s : seg) : Prop := Z (sa s) = 0 /\ Z (sb s) = 0.
Definition flats (l : list seg) : Prop := forall i, (i < length l)%nat -> flat_seg (nth i l seg0).
(* the first k pieces touch later ones, that are not neighbours, only with their ends *)
Definition nice (l : list seg) (k : nat) : Prop := forall i j v, (i < k)%nat -> (S i < j)%nat -> (j < length l)%nat -> ~ (i = 0%nat /\ S j = length l) ->
  touch (nth i l seg0) (nth j l seg0) v -> X v = X (sb (nth i l seg0)) /\ Y v = Y (sb (nth i l seg0)).
Lemma touch_flat s o v : touch s o v -> touch s o (P (X v) (Y v) 0).
Proof. intros (A & (t & B) & (u & C)). split; [exact A|]. split; [exists t|exists u]; unfold P, X, Y in *; cbn; assumption. Qed.
Lemma sq_flat (p q : pt) : Z p = 0 -> Z q = 0 -> sq p q = (X p - X q) * (X p - X q) + (Y p - Y q) * (Y p - Y q).
Proof. intros A B. destruct p, q. unfold sq, X, Y, Z in *. cbn in *. subst. ring. Qed.
Lemma part_start (s : seg) v : on_segment v (sa s) (sb s) -> part (mkSeg (sa s) v) s.
Proof. intros (t & Ht & A & B). exists 0, t. cbn [sa sb]. repeat split; try lra; assumption. Qed.
Lemma part_end (s : seg) v : on_segment v (sa s) (sb s) -> part (mkSeg v (sb s)) s.
Proof. intros (t & Ht & A & B). exists t, 1. cbn [sa sb]. repeat split; try lra; assumption. Qed.

Lemma cutLoops_left : forall fuel done rest, (length rest <= fuel)%nat -> flats (rev done ++ rest) -> chain (rev done ++ rest) -> nice (rev done ++ rest) (length done) ->
  exists L, cutLoops fuel (match done with [] => true | _ => false end) done rest = Ok L /\ flats L /\ chain L /\ nice L (length L) /\ (rev done ++ rest <> [] -> sa (nth 0 L seg0) = sa (nth 0 (rev done ++ rest) seg0)) /\
    (length L <= length (rev done ++ rest))%nat /\ forall j, (j < length L)%nat -> exists i, (j <= i < length (rev done ++ rest))%nat /\ part (nth j L seg0) (nth i (rev done ++ rest) seg0).
Proof.
  induction fuel as [|fuel IH]; intros done rest HF FL CH NI.
  { destruct rest; [|cbn in HF; lia]. exists (rev done ++ []). split; [reflexivity|]. rewrite app_length, rev_length, Nat.add_0_r. repeat (split; [auto|]). intros j Hj. exists j. split; [lia|apply part_refl]. }
  destruct rest as [|s r].
  { exists (rev done ++ []). split; [reflexivity|]. rewrite app_length, rev_length, Nat.add_0_r. repeat (split; [auto|]). intros j Hj. exists j. split; [lia|apply part_refl]. }
  cbn [cutLoops].
  set (cands := if (match done with [] => true | _ => false end : bool) then removelast (skipn 1 r) else skipn 1 r).
  set (D := length done) in *. set (L := rev done ++ s :: r) in *.
  assert (LR : length L = (D + S (length r))%nat) by (unfold L; rewrite app_length, rev_length; reflexivity).
  assert (RM : forall (u : list seg), length (removelast u) = (length u - 1)%nat).
  { intros u. destruct u as [|x u] using rev_ind; [reflexivity|]. rewrite removelast_last, app_length. cbn. lia. }
  assert (RN : forall (u : list seg) j, (j < length (removelast u))%nat -> nth j (removelast u) seg0 = nth j u seg0).
  { intros u j. destruct u as [|x u] using rev_ind; [reflexivity|]. rewrite removelast_last. intros Hj. rewrite app_nth1 by exact Hj. reflexivity. }
  assert (LD : nth D L seg0 = s) by (unfold L; rewrite app_nth2, rev_length by (rewrite rev_length; unfold D; lia); fold D; rewrite Nat.sub_diag; reflexivity).
  assert (LA : forall t, nth (D + S t) L seg0 = nth t r seg0).
  { intros t. unfold L. rewrite app_nth2, rev_length by (rewrite rev_length; fold D; lia). fold D. replace (D + S t - D)%nat with (S t) by lia. reflexivity. }
  assert (CI : forall j, (S D < j)%nat -> (j < length L)%nat -> ~ (D = 0%nat /\ S j = length L) -> (j - D - 2 < length cands)%nat /\ nth (j - D - 2) cands seg0 = nth j L seg0).
  { intros j Hj HL NE. assert (EJ : nth j L seg0 = nth (j - D - 2) (skipn 1 r) seg0).
    { destruct r as [|x r]; [cbn in LR; lia|]. cbn [skipn]. replace j with (D + S (S (j - D - 2)))%nat at 1 by lia. rewrite LA. reflexivity. }
    unfold cands. destruct done as [|d0 done].
    - assert (HB : (j - D - 2 < length (removelast (skipn 1 r)))%nat). { rewrite RM, skipn_length. cbn in D. subst D. cbn in *. lia. }
      split; [exact HB|]. rewrite RN by exact HB. symmetry. exact EJ.
    - split; [rewrite skipn_length; lia|]. symmetry. exact EJ. }
  assert (CL : forall t, (t < length cands)%nat -> (S t < length r)%nat).
  { intros t Ht. unfold cands in Ht. destruct done; rewrite ?RM, skipn_length in Ht; lia. }
  assert (CS : forall t, (t < length cands)%nat -> nth t cands seg0 = nth (S t) r seg0).
  { intros t Ht. pose proof (CL t Ht). unfold cands in *. destruct r as [|x r]; [cbn in *; lia|]. cbn [skipn nth] in *. destruct done; [apply RN, Ht|reflexivity]. }
  destruct (best_fold s cands) as (best & E & B). rewrite E. cbn [bind snd].
  destruct best as [[[pos dist] k]|]; cbn [best_of] in B.
  - destruct B as (j0 & Ek & Hj0 & T & ZP & DS & MN). cbn [Nat.add] in Ek. subst k. pose proof (CL j0 Hj0) as HR. rewrite (CS j0 Hj0) in T.
    destruct (skipn (S j0) r) as [|s1 r1] eqn:SK.
    { exfalso. apply (f_equal (@length _)) in SK. rewrite skipn_length in SK. cbn in SK. lia. }
    assert (LR1 : length r = (S j0 + S (length r1))%nat). { apply (f_equal (@length _)) in SK. rewrite skipn_length in SK. cbn in SK. lia. }
    assert (NR : forall t, nth (S j0 + t) r seg0 = nth t (s1 :: r1) seg0).
    { intros t. rewrite <- SK. rewrite <- (firstn_skipn (S j0) r) at 1. rewrite app_nth2; rewrite firstn_length_le by lia; [|lia]. f_equal. lia. }
    assert (ES1 : nth (S j0) r seg0 = s1) by (rewrite <- (Nat.add_0_r (S j0)); rewrite NR; reflexivity). rewrite ES1 in T.
    destruct T as (SP & ON & ON1).
    set (s' := mkSeg (sa s) pos) in *. set (s1' := mkSeg pos (sb s1)) in *.
    pose proof (part_start s pos ON) as PS. pose proof (part_end s1 pos ON1) as P1. fold s' in PS. fold s1' in P1.
    set (L' := rev done ++ s' :: s1' :: r1).
    assert (LL' : length L' = (D + S (S (length r1)))%nat) by (unfold L'; rewrite app_length, rev_length; reflexivity).
    assert (N0 : forall i, (i < D)%nat -> nth i L' seg0 = nth i L seg0) by (intros i Hi; unfold L, L'; rewrite !app_nth1 by (rewrite rev_length; exact Hi); reflexivity).
    assert (N1 : nth D L' seg0 = s') by (unfold L'; rewrite app_nth2, rev_length by (rewrite rev_length; unfold D; lia); fold D; rewrite Nat.sub_diag; reflexivity).
    assert (N2 : nth (D + 1) L' seg0 = s1').
    { unfold L'. rewrite app_nth2, rev_length by (rewrite rev_length; fold D; lia). fold D. replace (D + 1 - D)%nat with 1%nat by lia. reflexivity. }
    assert (N3 : forall t, nth (D + 2 + t) L' seg0 = nth t r1 seg0).
    { intros t. unfold L'. rewrite app_nth2, rev_length by (rewrite rev_length; fold D; lia). fold D. replace (D + 2 + t - D)%nat with (S (S t)) by lia. reflexivity. }
    assert (M1 : nth (D + S (S j0)) L seg0 = s1) by (rewrite LA; exact ES1).
    assert (M2 : forall t, nth (D + S (S j0) + S t) L seg0 = nth t r1 seg0).
    { intros t. replace (D + S (S j0) + S t)%nat with (D + S (S j0 + S t))%nat by lia. rewrite LA, NR. reflexivity. }
    assert (PT : forall j, (D < j)%nat -> (j < length L')%nat -> exists j', (j <= j')%nat /\ (j' < length L)%nat /\ (S j = length L' <-> S j' = length L) /\ part (nth j L' seg0) (nth j' L seg0)).
    { intros j Hj HL. destruct (Nat.eq_dec j (D + 1)) as [->|NE].
      - exists (D + S (S j0))%nat. rewrite N2, M1. repeat split; try lia. exact P1.
      - exists (D + S (S j0) + S (j - D - 2))%nat. rewrite M2. assert (EJ : nth j L' seg0 = nth (j - D - 2) r1 seg0) by (rewrite <- N3; f_equal; lia). rewrite EJ. repeat split; try lia. apply part_refl. }
    assert (FL' : flats L').
    { intros i Hi. destruct (lt_dec i D) as [H1|H1]; [rewrite N0 by exact H1; apply FL; lia|].
      pose proof (FL D ltac:(lia)) as FD. rewrite LD in FD. pose proof (FL (D + S (S j0))%nat ltac:(lia)) as F1. rewrite M1 in F1.
      destruct (Nat.eq_dec i D) as [->|H2]; [rewrite N1; split; [apply FD|exact ZP]|].
      destruct (Nat.eq_dec i (D + 1)) as [->|H3]; [rewrite N2; split; [exact ZP|apply F1]|].
      replace i with (D + 2 + (i - D - 2))%nat by lia. rewrite N3, <- M2. apply FL. lia. }
    assert (CH' : chain L').
    { intros i Hi. rewrite LL' in *. set (n' := (D + S (S (length r1)))%nat) in *.
      assert (LS : sb (nth (n' - 1) L' seg0) = sb (nth (length L - 1) L seg0)).
      { destruct (length r1) as [|q] eqn:Q.
        - replace (n' - 1)%nat with (D + 1)%nat by lia. replace (length L - 1)%nat with (D + S (S j0))%nat by lia. rewrite N2, M1. reflexivity.
        - replace (n' - 1)%nat with (D + 2 + q)%nat by lia. replace (length L - 1)%nat with (D + S (S j0) + S q)%nat by lia. rewrite N3, M2. reflexivity. }
      assert (HD : sa (nth 0 L' seg0) = sa (nth 0 L seg0)).
      { destruct (Nat.eq_dec D 0) as [D0|D0]; [|rewrite N0 by lia; reflexivity]. rewrite <- D0. rewrite N1, LD. reflexivity. }
      destruct i as [|i].
      { cbn [prevn]. rewrite LS, HD. apply (CH 0%nat). lia. }
      cbn [prevn]. destruct (lt_dec (S i) D) as [H1|H1]; [rewrite !N0 by lia; apply (CH (S i)); lia|].
      destruct (Nat.eq_dec (S i) D) as [H2|H2].
      { rewrite (N0 i) by lia. rewrite H2, N1. cbn [s' sa]. rewrite <- LD, <- H2. apply (CH (S i)). lia. }
      destruct (Nat.eq_dec i D) as [->|H3]; [rewrite <- Nat.add_1_r, N2, N1; reflexivity|].
      destruct (Nat.eq_dec i (D + 1)) as [->|H4].
      - rewrite N2. replace (S (D + 1)) with (D + 2 + 0)%nat by lia. rewrite N3, <- M2. cbn [s1' sb]. rewrite <- M1. replace (D + S (S j0) + 1)%nat with (S (D + S (S j0))) by lia. apply (CH (S (D + S (S j0)))). lia.
      - replace (S i) with (D + 2 + S (i - D - 2))%nat by lia. replace i with (D + 2 + (i - D - 2))%nat at 2 by lia. rewrite !N3, <- !M2.
        replace (D + S (S j0) + S (S (i - D - 2)))%nat with (S (D + S (S j0) + S (i - D - 2))) by lia. apply (CH (S (D + S (S j0) + S (i - D - 2)))). lia. }
    specialize (IH (s' :: done) (s1' :: r1)). cbn [rev] in IH. rewrite <- app_assoc in IH. cbn [app] in IH. fold L' in IH.
    assert (LE' : (length L' <= length L)%nat) by lia.
    assert (HD0 : sa (nth 0 L' seg0) = sa (nth 0 L seg0)).
    { destruct (Nat.eq_dec D 0) as [D0|D0]; [|rewrite N0 by lia; reflexivity]. rewrite <- D0. rewrite N1, LD. reflexivity. }
    destruct IH as (O & I1 & I2 & I3 & I4 & I5 & I6 & I7); [cbn [length] in *; lia|exact FL'|exact CH'| |
      exists O; split; [exact I1|]; split; [exact I2|]; split; [exact I3|]; split; [exact I4|]; split;
      [intros _; rewrite I5 by (unfold L'; destruct (rev done); discriminate); exact HD0|]; split; [lia|];
      intros j Hj; destruct (I7 j Hj) as (i & [Q0 Q1] & Q2); destruct (le_lt_dec i D) as [Q3|Q3];
      [exists i; split; [lia|]; apply (part_trans _ _ _ Q2); destruct (Nat.eq_dec i D) as [->|Q4]; [rewrite N1, LD; exact PS|rewrite N0 by lia; apply part_refl]
      |destruct (PT i Q3 Q1) as (i' & G1 & G2 & _ & G4); exists i'; split; [lia|apply (part_trans _ _ _ Q2 G4)]]].
    cbn [length]. fold D. intros i j v Hi Hj HL NE TT.
    destruct (Nat.eq_dec i D) as [->|ND].
    + destruct (PT j ltac:(lia) HL) as (j' & G1 & G2 & G3 & G4). rewrite N1 in *.
      assert (T2 : touch s (nth j' L seg0) v) by exact (part_touch _ _ _ _ v PS G4 TT).
      destruct (CI j' ltac:(lia) G2 ltac:(intros [Q1 Q2]; apply NE; split; [exact Q1|apply G3, Q2])) as (C1 & C2). rewrite <- C2 in T2.
      specialize (MN _ (P (X v) (Y v) 0) C1 (touch_flat _ _ _ T2) eq_refl). rewrite DS in MN.
      assert (ZS : Z (sa s) = 0). { pose proof (FL D ltac:(lia)) as FD. rewrite LD in FD. apply FD. }
      rewrite !sq_flat in MN by (assumption || reflexivity). change (X (P (X v) (Y v) 0)) with (X v) in MN. change (Y (P (X v) (Y v) 0)) with (Y v) in MN.
      destruct TT as (_ & (t & Ht & VX & VY) & _). cbn [s' sa sb] in *. rewrite VX, VY in *.
      set (a := X pos - X (sa s)) in *. set (b := Y pos - Y (sa s)) in *.
      replace (X (sa s) + t * a - X (sa s)) with (t * a) in MN by ring. replace (Y (sa s) + t * b - Y (sa s)) with (t * b) in MN by ring.
      assert (Q : (1 - t * t) * (a * a + b * b) <= 0) by lra.
      destruct (Req_dec t 1) as [->|T1]; [unfold a, b; split; ring|].
      assert (TP : 0 < 1 - t * t) by nra. assert (AB : 0 <= a * a + b * b) by nra.
      assert (Z0 : a * a + b * b = 0) by (destruct AB as [AB|AB]; [pose proof (Rmult_lt_0_compat _ _ TP AB); lra|auto]).
      apply sq2_zero in Z0. destruct Z0 as [Za Zb]. unfold a, b in *. rewrite Za, Zb. split; lra.
    + rewrite N0 in * by lia. destruct (le_lt_dec j D) as [JD|JD].
      * assert (G : exists o, nth j L seg0 = o /\ part (nth j L' seg0) o).
        { destruct (Nat.eq_dec j D) as [->|]; [exists s; rewrite N1; split; [exact LD|exact PS]|]. exists (nth j L seg0). rewrite N0 by lia. split; [reflexivity|apply part_refl]. }
        destruct G as (o & G1 & G2). apply (NI i j v); try lia. rewrite G1. exact (part_touch _ _ _ _ v (part_refl _) G2 TT).
      * destruct (PT j JD HL) as (j' & G1 & G2 & G3 & G4). assert (TP : touch (nth i L seg0) (nth j' L seg0) v) by exact (part_touch _ _ _ _ v (part_refl _) G4 TT). apply (NI i j' v); try assumption; try lia.
  - specialize (IH (s :: done) r). cbn [rev] in IH. rewrite <- app_assoc in IH. cbn [app] in IH. fold L in IH. apply IH; [cbn in HF; lia|exact FL|exact CH|].
    cbn [length]. fold D. intros i j v Hi Hj HL NE TT. destruct (Nat.eq_dec i D) as [->|ND]; [|apply (NI i j v); try assumption; lia].
    exfalso. rewrite LD in TT. destruct (CI j Hj HL NE) as (C1 & C2). rewrite <- C2 in TT. exact (B _ v C1 TT).
Qed.
