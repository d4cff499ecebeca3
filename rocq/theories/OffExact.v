(** connect and cutLoops when the parallel polygon is simple. *)
From Coq Require Import Reals Lra Psatz ZArith List Bool Arith Lia.
From Verif Require Import Num GeoModel EdgeModel GeoSpec GeoMat GeoFig GeoCirc EdgeSpecR EdgeReal ArcModel FloorModel PolySpec OffSpec OffProof.
Import ListNotations.
Open Scope R_scope.

Lemma cyc_S_last (l : list pt) n : length l = S n -> cyc l (S n) = cyc l 0.
Proof. intros H. unfold cyc. rewrite H, Nat.mod_same, Nat.mod_0_l by lia. reflexivity. Qed.
Lemma spans_shift (a b c d : pt) x y p q r s : spans (shift a b x p) (shift a b x q) (shift c d y r) (shift c d y s) = spans p q r s.
Proof. unfold spans, shift, P, X, Y. cbn. f_equal. ring. Qed.

Section Exact.
Variable closed : bool.
Variables l m : list pt.
Variable d : R.
Hypothesis N3 : (3 <= length l)%nat.
Hypothesis ND : forall k, (k < length l)%nat -> ~ (X (cyc l k) = X (cyc l (S k)) /\ Y (cyc l k) = Y (cyc l (S k))).
Hypothesis PP : parallel_polygon closed l d m.
Hypothesis FC : firm_corners closed l d m.
Definition dk (k : nat) : R := moved closed (length l) d k.
Definition st (k : nat) : pt := shift (cyc l k) (cyc l (S k)) (dk k) (cyc l k).
Definition sp (k : nat) : pt := shift (cyc l k) (cyc l (S k)) (dk k) (cyc l (S k)).
Definition onp (k : nat) (p : pt) : Prop := on_parallel (cyc l k) (cyc l (S k)) (dk k) p.
Lemma onp_st k : (k < length l)%nat -> onp k (st k).
Proof. intros H. apply shift_on; [apply ND, H|]. unfold side. ring. Qed.
Lemma onp_sp k : (k < length l)%nat -> onp k (sp k).
Proof. intros H. apply shift_on; [apply ND, H|]. unfold side. ring. Qed.
Lemma onp_m k : (k < length l)%nat -> onp k (cyc m k) /\ onp k (cyc m (S k)).
Proof. destruct PP as (_ & _ & H). apply H. Qed.
Lemma m_flat k : Z (cyc m k) = 0.
Proof. destruct PP as (L & H & _). apply H. unfold cyc. apply nth_In, Nat.mod_upper_bound. lia. Qed.

Lemma connect_steps (o : list seg) : length o = length l -> (forall k, (k < length l)%nat -> nth k o seg0 = mkSeg (st k) (sp k)) ->
  forall k, (k <= length l)%nat -> exists l', foldM (connectStep (length l)) o (seq 0 k) = Ok l' /\ length l' = length l /\
    forall i, (i < length l)%nat -> nth i l' seg0 = mkSeg (if (i <? k)%nat then cyc m i else st i)
       (if (S i <? k)%nat || ((S i =? length l)%nat && (0 <? k)%nat) then cyc m (S i) else sp i).
Proof.
  intros LO HO. set (n := length l) in *. assert (LM : length m = n) by apply PP. assert (CN : forall j, S j = n -> cyc m (S j) = cyc m 0) by (intros j Hj; apply cyc_S_last; lia).
  assert (CL : forall j, S j = n -> cyc l (S j) = cyc l 0) by (intros j Hj; apply cyc_S_last; unfold n in Hj; lia).
  induction k as [|k IH]; intros Hk.
  { exists o. split; [reflexivity|]. split; [exact LO|]. intros i Hi. rewrite HO by exact Hi. cbn. rewrite andb_false_r. reflexivity. }
  destruct (IH ltac:(lia)) as (l' & E & L & C). rewrite seq_S. cbn [Nat.add].
  destruct (connectStep_ok n l' k) as (mm & EI & E2).
  assert (PK : (prevn n k < n)%nat) by (unfold prevn; destruct k; lia).
  assert (EM : mm = Some (cyc m k)).
  { assert (K : sintersect2D (nth (prevn n k) l' seg0) (nth k l' seg0) 2 = Ok (Some (cyc m k))); [|rewrite K in EI; apply Ok_inj in EI; auto].
    assert (CK : cyc m (S (prevn n k)) = cyc m k). { unfold prevn. destruct k; [|reflexivity]. apply CN. lia. }
    rewrite (C k ltac:(lia)), (C (prevn n k) PK).
    apply (meet_exact _ _ (cyc l (prevn n k)) (cyc l (S (prevn n k))) (cyc l k) (cyc l (S k)) _ (dk (prevn n k)) (dk k)); cbn [sa sb].
    - apply ND, PK.
    - apply ND. exact Hk.
    - destruct (Nat.ltb (prevn n k) k); [apply onp_m|apply onp_st]; exact PK.
    - destruct ((S (prevn n k) <? k)%nat || ((S (prevn n k) =? n)%nat && (0 <? k)%nat)); [apply onp_m|apply onp_sp]; exact PK.
    - destruct (Nat.ltb k k); [apply onp_m|apply onp_st]; exact Hk.
    - destruct ((S k <? k)%nat || ((S k =? n)%nat && (0 <? k)%nat)); [apply onp_m|apply onp_sp]; exact Hk.
    - destruct FC as [F0 F1]. fold n in F0, F1. destruct k as [|k].
      + unfold prevn. cbn [Nat.ltb Nat.leb andb orb]. rewrite ?andb_false_r, ?orb_false_r. destruct (Nat.ltb_spec (n - 1) 0); [lia|]. destruct (Nat.ltb_spec (S (n - 1)) 0); [lia|].
        unfold st, sp. rewrite spans_shift. rewrite (CL (n - 1)%nat) by lia. exact F0.
      + unfold prevn. destruct (Nat.ltb_spec k (S k)); [|lia]. destruct (Nat.ltb_spec (S k) (S k)); [lia|]. destruct (Nat.eqb_spec (S k) n); [lia|]. cbn [andb orb].
        destruct (Nat.ltb_spec (S (S k)) (S k)); [lia|]. cbn [orb Nat.ltb Nat.leb]. rewrite andb_true_r. specialize (F1 k ltac:(lia)). cbv zeta in F1.
        destruct (Nat.eqb_spec (S (S k)) n) as [E3|]; [|exact F1]. rewrite (CN (S k) E3). exact F1.
    - apply m_flat.
    - rewrite <- CK. apply onp_m, PK.
    - apply onp_m. exact Hk. }
  subst mm. eexists. split; [apply foldM_snoc; exists l'; split; [exact E|exact E2]|]. split; [rewrite !update_length; exact L|].
  intros i Hi. rewrite !update_nth, !update_length, L. destruct (Nat.ltb_spec i n); [|lia]. rewrite !andb_true_r. rewrite (C i Hi).
  assert (CI : prevn n k = i -> cyc m k = cyc m (S i)). { intros <-. unfold prevn. destruct k; [symmetry; apply CN; lia|reflexivity]. }
  destruct (Nat.eqb_spec k i) as [<-|NE].
  - destruct (Nat.ltb_spec k (S k)); [|lia]. destruct (Nat.eqb_spec (prevn n k) k) as [E3|N4]; [exfalso; unfold prevn in E3; destruct k; lia|]. cbn [sa sb].
    f_equal. destruct (Nat.ltb_spec (S k) k); [lia|]. destruct (Nat.ltb_spec (S k) (S k)); [lia|]. cbn [orb].
    destruct (Nat.eqb_spec (S k) n); [|reflexivity]. destruct k; [lia|reflexivity].
  - destruct (Nat.eqb_spec (prevn n k) i) as [E3|N4]; cbn [sa sb].
    + rewrite (CI E3). assert (IK : (S i = k \/ (k = 0 /\ S i = n))%nat) by (unfold prevn in E3; destruct k; lia).
      f_equal.
      * destruct (Nat.ltb_spec i k), (Nat.ltb_spec i (S k)); try reflexivity; lia.
      * destruct (Nat.ltb_spec (S i) (S k)); [reflexivity|]. destruct (Nat.eqb_spec (S i) n); [reflexivity|lia].
    + assert (IK : S i <> k) by (unfold prevn in N4; destruct k; lia). f_equal.
      * destruct (Nat.ltb_spec i k), (Nat.ltb_spec i (S k)); try reflexivity; lia.
      * destruct (Nat.ltb_spec (S i) k), (Nat.ltb_spec (S i) (S k)); cbn [orb]; try reflexivity; try lia.
        destruct (Nat.eqb_spec (S i) n); [|reflexivity]. destruct k; [|reflexivity]. exfalso. unfold prevn in N4. lia.
Qed.
Definition mseg (k : nat) : seg := mkSeg (cyc m k) (cyc m (S k)).
Lemma connect_exact (o : list seg) : length o = length l -> (forall k, (k < length l)%nat -> nth k o seg0 = mkSeg (st k) (sp k)) ->
  connect o = Ok (map mseg (seq 0 (length l))).
Proof.
  intros LO HO. unfold connect. rewrite LO. destruct (connect_steps o LO HO (length l) (le_n _)) as (l' & E & L & C). rewrite E. f_equal.
  apply (nth_ext _ _ seg0 seg0); [rewrite map_length, seq_length; exact L|]. intros i Hi. rewrite L in Hi. rewrite (C i Hi).
  rewrite (nth_indep _ seg0 (mseg 0)) by (rewrite map_length, seq_length; exact Hi). rewrite map_nth, seq_nth by exact Hi. unfold mseg. cbn [Nat.add].
  destruct (Nat.ltb_spec i (length l)); [|lia]. f_equal. destruct (Nat.ltb_spec (S i) (length l)); [reflexivity|]. destruct (Nat.eqb_spec (S i) (length l)); [|lia].
  destruct (Nat.ltb_spec 0 (length l)); [reflexivity|lia].
Qed.
End Exact.
