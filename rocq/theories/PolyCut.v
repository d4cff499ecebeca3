(** Ear clipping completes on every simple polygon that keeps the tolerance. *)
From Coq Require Import Reals Lra Psatz ZArith List Lia Permutation Bool.
From Verif Require Import Num GeoModel GeoSpec EdgeModel EdgeSpecR FaceModel FaceSpec FaceSpecR FaceComb FaceCut FaceEar FaceCover NormSpec PolyEv PolySides PolyCross PolyWind PolyJordan PolyInside PolySplit PolyDiag PolyEars PolyPlain.
Import ListNotations.
Open Scope R_scope.

Lemma psides_nth {A} (l : list A) i d : (i < length l)%nat -> nth i (psides l) (d, d) = (nth i l d, nth (S i mod length l) l d).
Proof.
  intros L. destruct l as [|a r]; [cbn in L; lia|]. unfold psides. set (n := length (a :: r)) in *.
  rewrite combine_nth by (rewrite app_length; cbn; lia). f_equal. rewrite next_mod by lia. destruct (Nat.eqb_spec (S i) n) as [E|E].
  - rewrite app_nth2 by (cbn in *; lia). replace (i - length r)%nat with 0%nat by (cbn in *; lia). reflexivity.
  - rewrite app_nth1 by (unfold n in *; cbn in *; lia). reflexivity.
Qed.
Lemma next_in {A} (l : list A) i d : (i < length l)%nat -> In (nth i l d, nth (S i mod length l) l d) (psides l).
Proof. intros L. rewrite <- psides_nth by exact L. apply nth_In. rewrite psides_length. exact L. Qed.
Lemma prev_in {A} (l : list A) i d : (i < length l)%nat -> In (nth ((i + length l - 1) mod length l) l d, nth i l d) (psides l).
Proof.
  intros L. set (n := length l) in *. set (j := ((i + n - 1) mod n)%nat).
  assert (Lj : (j < n)%nat) by (apply Nat.mod_upper_bound; lia).
  assert (E : (S j mod n = i)%nat). { unfold j. rewrite prev_mod by lia. rewrite next_mod by (destruct (i =? 0)%nat; lia). destruct (Nat.eqb_spec i 0); [subst; replace (S (n - 1)) with n by lia; rewrite Nat.eqb_refl; reflexivity|]. replace (S (i - 1)) with i by lia. destruct (Nat.eqb_spec i n); lia. }
  pose proof (next_in l j d Lj) as H. fold n in H. rewrite E in H. exact H.
Qed.

(* three different corners keep the tolerance *)
Definition wide (l : list pt) : Prop := forall p q r, In p l -> In q l -> In r l -> p <> q -> q <> r -> p <> r -> eps * edist2 p q < Rabs (side p q r).
Lemma pair_inj {A B} (a c : A) (b d : B) : (a, b) = (c, d) -> a = c /\ b = d.
Proof. intros H. inversion H. auto. Qed.
Section Cutting.
Variable pts : list pt.
Local Notation p_ := (at_ pts).
Local Notation image rem := (map p_ rem).
Lemma eps_pos : 0 < eps. Proof. unfold eps. lra. Qed.
Lemma wide_neg l p q r : wide l -> In p l -> In q l -> In r l -> p <> q -> q <> r -> p <> r -> side p q r < 0 -> side p q r <= - eps * edist2 p q.
Proof. intros W A B C N1 N2 N3 H. pose proof (W p q r A B C N1 N2 N3) as K. rewrite Rabs_left in K by exact H. lra. Qed.
Lemma wide_pos l p q r : wide l -> In p l -> In q l -> In r l -> p <> q -> q <> r -> p <> r -> - eps * edist2 p q <= side p q r -> 0 < side p q r.
Proof.
  intros W A B C N1 N2 N3 H. pose proof (W p q r A B C N1 N2 N3) as K. destruct (Rlt_dec 0 (side p q r)); [assumption|]. exfalso. rewrite Rabs_left1 in K by lra. lra.
Qed.
Section Round.
Variable rem : list nat.
Local Notation l := (image rem).
Local Notation n := (length rem).
Hypothesis T : plain l.
Hypothesis W : wide l.
Hypothesis AR : 0 < area_xy l.
Lemma n3 : (3 <= n)%nat. Proof. pose proof (p_len _ T) as H. rewrite map_length in H. exact H. Qed.
Lemma nd_rem : NoDup rem. Proof. apply (NoDup_map_inv p_), T. Qed.
Lemma inj i j : In i rem -> In j rem -> p_ i = p_ j -> i = j.
Proof. intros A B E. apply (NoDup_inj p_ rem); auto. apply T. Qed.
Lemma corner_ids i : (i < n)%nat -> let a := nth ((i + n - 1) mod n) rem 0%nat in let b := nth i rem 0%nat in let c := nth (S i mod n) rem 0%nat in
  In a rem /\ In b rem /\ In c rem /\ In (p_ a, p_ b) (psides l) /\ In (p_ b, p_ c) (psides l).
Proof.
  intros L a b c. pose proof n3.
  split; [apply nth_In, Nat.mod_upper_bound; lia|]. split; [apply nth_In; lia|]. split; [apply nth_In, Nat.mod_upper_bound; lia|].
  split; apply psides_map_in; [apply prev_in, L|apply next_in, L].
Qed.
Lemma corner_apart a b c : In (a, b) (psides l) -> In (b, c) (psides l) -> a <> b /\ b <> c /\ a <> c /\ apart a b /\ apart b c /\ apart c a.
Proof.
  intros H K. destruct (psides_in _ _ _ H), (psides_in _ _ _ K).
  assert (N1 : a <> b) by (apply (side_neq l _ _ (p_nd _ T)); [apply (Nat.le_trans _ 3); [lia|apply (p_len _ T)]|exact H]).
  assert (N2 : b <> c) by (apply (side_neq l _ _ (p_nd _ T)); [apply (Nat.le_trans _ 3); [lia|apply (p_len _ T)]|exact K]).
  assert (N3 : a <> c) by (apply (ends_neq l _ _ _ (p_nd _ T) (p_len _ T) H K)).
  repeat split; auto; unfold apart; apply (plain_apart l); auto.
Qed.
Lemma earAt_all i : (i < n)%nat -> exists e, earAt pts rem i = Ok e.
Proof.
  intros L. destruct (corner_ids i L) as (_ & _ & _ & H & K). destruct (corner_apart _ _ _ H K) as (_ & _ & _ & A1 & A2 & A3). apply earAt_ok; assumption.
Qed.
Lemma goodEar_iff i e : (i < n)%nat -> earAt pts rem i = Ok e -> let '(a, b, c) := FaceModel.ear e in
  goodEar pts rem e = true <-> isear l (p_ a) (p_ b) (p_ c).
Proof.
  intros L E. pose proof (earAt_R _ _ _ _ E) as R0. rewrite (earAt_ear _ _ _ _ E) in R0 |- *.
  destruct (corner_ids i L) as (Ia & Ib & Ic & H & K). set (a := nth ((i + n - 1) mod n) rem 0%nat) in *. set (b := nth i rem 0%nat) in *. set (c := nth (S i mod n) rem 0%nat) in *.
  destruct R0 as (_ & _ & _ & RH & RB). destruct (corner_apart _ _ _ H K) as (N1 & N2 & N3 & _).
  assert (Ja : In (p_ a) l) by (apply in_map, Ia). assert (Jb : In (p_ b) l) by (apply in_map, Ib). assert (Jc : In (p_ c) l) by (apply in_map, Ic).
  assert (SC : side (p_ c) (p_ a) (p_ b) = side (p_ a) (p_ b) (p_ c)) by (unfold side; ring).
  unfold goodEar. rewrite andb_true_iff, RH, negb_true_iff, (earAt_ear _ _ _ _ E). fold a b c. split.
  - intros [G1 G2]. split; [exact H|]. split; [exact K|]. split; [rewrite <- SC in *; apply (wide_pos l); auto|].
    intros v Iv V1 V2 V3. apply in_map_iff in Iv. destruct Iv as (j & <- & Ij).
    assert (BL : blocks pts e j = false).
    { destruct (blocks pts e j) eqn:Q; [|reflexivity]. exfalso.
      assert (X : existsb (fun j => negb (inEar j (a, b, c)) && blocks pts e j) rem = true); [|congruence].
      apply existsb_exists. exists j. split; [exact Ij|]. rewrite Q, andb_true_r. unfold inEar.
      destruct (Nat.eqb_spec j a); [subst j; congruence|]. destruct (Nat.eqb_spec j b); [subst j; congruence|]. destruct (Nat.eqb_spec j c); [subst j; congruence|]. reflexivity. }
    assert (EP : forall p q, 0 <= eps * edist2 p q) by (intros p q; apply Rmult_le_pos; [pose proof eps_pos; lra|apply edist2_nonneg]).
    assert (Jv : In (p_ j) l) by (apply in_map, Ij). pose proof (p_gp _ T) as GP.
    assert (S1 : side (p_ a) (p_ b) (p_ j) <> 0) by (apply GP; auto). assert (S2 : side (p_ b) (p_ c) (p_ j) <> 0) by (apply GP; auto). assert (S3 : side (p_ c) (p_ a) (p_ j) <> 0) by (apply GP; auto).
    unfold outside3. destruct (Rlt_dec (side (p_ a) (p_ b) (p_ j)) 0); [auto|]. destruct (Rlt_dec (side (p_ b) (p_ c) (p_ j)) 0); [auto|]. destruct (Rlt_dec (side (p_ c) (p_ a) (p_ j)) 0); [auto|].
    exfalso. assert (Q : blocks pts e j = true); [|congruence]. apply RB. pose proof (EP (p_ c) (p_ a)). pose proof (EP (p_ b) (p_ c)). pose proof (EP (p_ a) (p_ b)). repeat split; lra.
  - intros (_ & _ & G1 & G2). split.
    + assert (0 <= eps * edist2 (p_ c) (p_ a)) by (apply Rmult_le_pos; [pose proof eps_pos; lra|apply edist2_nonneg]). lra.
    + destruct (existsb _ rem) eqn:Q; [|reflexivity]. exfalso. apply existsb_exists in Q. destruct Q as (j & Ij & Q). apply andb_prop in Q. destruct Q as [Q1 Q2].
      apply RB in Q2. destruct Q2 as (B1 & B2 & B3). apply negb_true_iff in Q1. unfold inEar in Q1. apply orb_false_iff in Q1. destruct Q1 as [Q1 Q3]. apply orb_false_iff in Q1. destruct Q1 as [Q1 Q4].
      apply Nat.eqb_neq in Q1, Q3, Q4. assert (Jv : In (p_ j) l) by (apply in_map, Ij).
      assert (V1 : p_ j <> p_ a) by (intros F; apply Q1, inj; auto). assert (V2 : p_ j <> p_ b) by (intros F; apply Q4, inj; auto). assert (V3 : p_ j <> p_ c) by (intros F; apply Q3, inj; auto).
      destruct (G2 (p_ j) Jv V1 V2 V3) as [O|[O|O]].
      * pose proof (wide_neg l _ _ _ W Ja Jb Jv N1 (not_eq_sym V2) (not_eq_sym V1) O). lra.
      * pose proof (wide_neg l _ _ _ W Jb Jc Jv N2 (not_eq_sym V3) (not_eq_sym V2) O). lra.
      * pose proof (wide_neg l _ _ _ W Jc Ja Jv (not_eq_sym N3) (not_eq_sym V1) (not_eq_sym V3) O). lra.
Qed.
Lemma search_some is_ : (forall i, In i is_ -> (i < n)%nat) -> (exists i e, In i is_ /\ earAt pts rem i = Ok e /\ goodEar pts rem e = true) ->
  exists i t, searchFresh pts rem is_ = Ok (Some (i, t)).
Proof.
  induction is_ as [|k is_ IH]; intros B (i & e & I & E & G); [destruct I|]. cbn [searchFresh].
  destruct (earAt_all k) as (e' & E'); [apply B; left; reflexivity|]. rewrite E'. cbn [bind]. destruct (goodEar pts rem e') eqn:G'; [eauto|].
  apply IH; [intros j Hj; apply B; right; exact Hj|]. exists i, e. destruct I as [<-|I]; [congruence|auto].
Qed.
Lemma round_ok : exists i a b c, searchFresh pts rem (seq 0 n) = Ok (Some (i, (a, b, c))) /\ (i < n)%nat /\ isear l (p_ a) (p_ b) (p_ c) /\ b = nth i rem 0%nat.
Proof.
  destruct (plain_ear l T AR) as (a' & b' & c' & G). pose proof G as (H & K & _).
  assert (Lb : exists i, (i < n)%nat /\ p_ (nth i rem 0%nat) = b').
  { destruct (psides_in _ _ _ H) as [_ Ib]. apply in_map_iff in Ib. destruct Ib as (b & <- & Ib). destruct (In_nth _ _ 0%nat Ib) as (i & Li & Ei). exists i. rewrite Ei. auto. }
  destruct Lb as (i & Li & Eb). destruct (earAt_all i Li) as (e & E). pose proof (goodEar_iff i e Li E) as GI. rewrite (earAt_ear _ _ _ _ E) in GI.
  destruct (corner_ids i Li) as (_ & _ & _ & H' & K'). rewrite Eb in H', K'.
  assert (Ea : p_ (nth ((i + n - 1) mod n) rem 0%nat) = a') by (apply (prev_unique _ _ _ _ (p_nd _ T) H' H)).
  assert (Ec : p_ (nth (S i mod n) rem 0%nat) = c') by (apply (next_unique _ _ _ _ (p_nd _ T) K' K)).
  rewrite Ea, Eb, Ec in GI. apply GI in G.
  destruct (search_some (seq 0 n)) as (k & [[a b] c] & S0); [intros j Hj; apply in_seq in Hj; lia|exists i, e; split; [apply in_seq; lia|auto]|].
  destruct (search_pos _ _ _ _ _ S0) as (Ik & e' & E' & ET & G'). apply in_seq in Ik.
  exists k, a, b, c. split; [exact S0|]. split; [lia|]. pose proof (goodEar_iff k e' ltac:(lia) E') as GI'. rewrite ET in GI'. split; [apply GI', G'|].
  rewrite (earAt_ear _ _ _ _ E') in ET. apply pair_inj in ET. destruct ET as [ET _]. apply pair_inj in ET. destruct ET as [_ ET]. symmetry. exact ET.
Qed.
Lemma round_rest i a b c : (i < n)%nat -> isear l (p_ a) (p_ b) (p_ c) -> b = nth i rem 0%nat -> (4 <= n)%nat ->
  plain (image (del rem i)) /\ 0 < area_xy (image (del rem i)).
Proof.
  intros Li G Eb L4. pose proof (del_rot rem i 0%nat Li) as D. rewrite <- Eb in D. unfold del. set (r1 := firstn i rem) in *. set (r2 := skipn (S i) rem) in *.
  assert (EL : l = (image r1 : list pt) ++ ((p_ b : pt) :: image r2)) by (rewrite D at 1; rewrite map_app; reflexivity).
  assert (TR : forall Q : list pt -> Prop, Q l -> Q ((image r1 : list pt) ++ ((p_ b : pt) :: image r2))) by (intros Q0; rewrite <- EL; auto).
  destruct G as (H & K & L & O). rewrite map_app.
  assert (PR : plain (p_ b :: image r2 ++ image r1)) by (apply (plain_rot (image r1) (p_ b :: image r2)); apply (TR plain T)).
  assert (A2 : area_xy (p_ b :: image r2 ++ image r1) = area_xy l) by (etransitivity; [apply (area_rot (p_ b :: image r2) (image r1))|]; symmetry; apply (TR (fun m => area_xy l = area_xy m) eq_refl)).
  assert (H' : In (p_ a, p_ b) (psides (p_ b :: image r2 ++ image r1))) by (apply (Permutation_in _ (psides_rot (image r1) (p_ b :: image r2))); apply (TR (fun m => In (p_ a, p_ b) (psides m)) H)).
  assert (K' : In (p_ b, p_ c) (psides (p_ b :: image r2 ++ image r1))) by (apply (Permutation_in _ (psides_rot (image r1) (p_ b :: image r2))); apply (TR (fun m => In (p_ b, p_ c) (psides m)) K)).
  assert (LN : (4 <= length (p_ b :: image r2 ++ image r1))%nat).
  { rewrite <- (Permutation_length (rot_perm (image r1) (p_ b :: image r2)) : _ = length (p_ b :: image r2 ++ image r1)). apply (TR (fun m => (4 <= length m)%nat)). rewrite map_length. exact L4. }
  assert (IN : forall v, In v (image r2 ++ image r1) -> In v l) by (intros v Iv; rewrite EL; apply in_app_iff in Iv; apply in_app_iff; cbn [In]; tauto).
  destruct (image r2 ++ image r1) as [|c' r] eqn:ER; [cbn in LN; lia|]. destruct (exists_last (l := r)) as (R0 & a' & ->); [destruct r; [cbn in LN; lia|discriminate]|].
  pose proof (p_nd _ PR) as ND.
  assert (p_ c = c') as Ec by (apply (next_unique _ _ _ _ ND K'); rewrite psides_consec; left; reflexivity).
  assert (p_ a = a') as Ea by (apply (prev_unique _ _ _ _ ND H'), Sab). subst a' c'.
  assert (PR2 : plain (p_ a :: p_ b :: p_ c :: R0)) by (apply (plain_rot (p_ b :: p_ c :: R0) [p_ a]), PR).
  assert (A3 : 0 < area_xy (p_ a :: p_ b :: p_ c :: R0)) by (apply (Rlt_le_trans _ (area_xy l)); [exact AR|right; rewrite <- A2; apply (area_rot (p_ b :: p_ c :: R0) [p_ a])]).
  assert (O' : forall v, In v R0 -> outside3 (p_ a) (p_ b) (p_ c) v).
  { intros v Iv. pose proof (p_nd _ PR2) as ND2. inversion ND2 as [|? ? M1 D1]; subst. inversion D1 as [|? ? M2 D2]; subst. inversion D2 as [|? ? M3 D3]; subst.
    apply O; [apply IN; right; apply in_app_iff; auto|intros ->; apply M1; right; right; exact Iv|intros ->; apply M2; right; exact Iv|intros ->; apply M3; exact Iv]. }
  destruct (plain_cut _ _ _ R0 PR2 A3 L O') as [P1 P2]; [intros ->; cbn in LN; lia|].
  split; [apply plain_rot; exact (eq_ind _ plain P1 _ (eq_sym ER))|]. apply (Rlt_le_trans _ _ _ P2). right. etransitivity; [exact (f_equal area_xy (eq_sym ER))|apply area_rot].
Qed.
End Round.
Theorem cut_complete rounds : forall rem, length rem = (rounds + 2)%nat -> (1 <= rounds)%nat -> plain (image rem) -> wide (image rem) -> 0 < area_xy (image rem) ->
  exists ts, cutFresh rounds pts rem = Ok ts /\ length ts = rounds /\ forall a b c, In (a, b, c) ts -> 0 < side (p_ a) (p_ b) (p_ c).
Proof.
  induction rounds as [|rounds IH]; intros rem L L1 T W AR; [lia|]. cbn [cutFresh].
  destruct (round_ok rem T W AR) as (i & a & b & c & S0 & Li & G & Eb). rewrite S0. cbn [bind].
  destruct rounds as [|rounds].
  - cbn [cutFresh bind]. eexists. split; [reflexivity|]. split; [reflexivity|]. intros x y z [E|[]]. apply pair_inj in E. destruct E as [E <-]. apply pair_inj in E. destruct E as [<- <-]. apply G.
  - destruct (round_rest rem T AR i a b c Li G Eb ltac:(lia)) as [T' A'].
    destruct (IH (del rem i)) as (ts & E & LT & AT); [rewrite del_length by lia; lia|lia|exact T'| |exact A'|].
    + intros p q r Hp Hq Hr. apply W; [revert Hp|revert Hq|revert Hr]; intros X; apply in_map_iff in X; destruct X as (j & <- & Ij); apply in_map, (del_incl rem i), Ij.
    + rewrite E. cbn [bind]. eexists. split; [reflexivity|]. split; [cbn; lia|]. intros x y z [F|I]; [|apply (AT x y z I)].
      apply pair_inj in F. destruct F as [F <-]. apply pair_inj in F. destruct F as [<- <-]. apply G.
Qed.
End Cutting.
