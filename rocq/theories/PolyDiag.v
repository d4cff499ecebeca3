(** Every simple polygon with more than three corners has a chord that divides it into two simple polygons of the same orientation. *)
From Coq Require Import Reals Lra Psatz ZArith List Lia Permutation.
From Verif Require Import Num GeoModel GeoSpec EdgeSpecR FaceModel FaceSpec FaceSpecR FaceCover PolyEv PolySides PolyCross PolyWind PolyJordan PolyInside PolySplit.
Import ListNotations.
Open Scope R_scope.

(* the crossing of b-z and u-w, as an average of both ends *)
Lemma cross_avg b z u w x y : side b z w * side x y u - side b z u * side x y w = side u w b * side x y z - side u w z * side x y b.
Proof. unfold side. ring. Qed.
Lemma cross_avg1 b z u w : side b z w - side b z u = side u w b - side u w z.
Proof. unfold side. ring. Qed.
Lemma neg_cases a b : a * b < 0 -> (0 < a /\ b < 0) \/ (a < 0 /\ 0 < b).
Proof. intros N. destruct (Rtotal_order a 0) as [F|[F|F]]; [right; split; nra|exfalso; rewrite F in N; lra|left; split; nra]. Qed.
(* weights *)
Lemma cross_weights b z u w : side b z u * side b z w < 0 -> side u w b * side u w z < 0 ->
  exists al be ga de, 0 < al /\ 0 < be /\ 0 < ga /\ 0 < de /\ al + be = ga + de /\ forall x y, al * side x y u + be * side x y w = ga * side x y z + de * side x y b.
Proof.
  intros A B. pose proof (cross_avg1 b z u w) as E. apply neg_cases in A, B. destruct A as [[A1 A2]|[A1 A2]], B as [[B1 B2]|[B1 B2]]; try lra.
  - exists (- side b z w), (side b z u), (- side u w b), (side u w z). repeat split; try lra. intros x y. pose proof (cross_avg b z u w x y). lra.
  - exists (side b z w), (- side b z u), (side u w b), (- side u w z). repeat split; try lra. intros x y. pose proof (cross_avg b z u w x y). lra.
Qed.
Lemma mpp a b : 0 < a -> 0 < b -> 0 < a * b. Proof. apply Rmult_lt_0_compat. Qed.
Lemma mpn a b : 0 < a -> b < 0 -> a * b < 0. Proof. intros. nra. Qed.
Lemma mnp a b : a < 0 -> 0 < b -> a * b < 0. Proof. intros. nra. Qed.
Lemma mnn a b : a < 0 -> b < 0 -> 0 < a * b. Proof. intros. nra. Qed.
Lemma dl a b : 0 < a * b -> 0 < a -> 0 < b. Proof. intros. nra. Qed.
Lemma dr a b : 0 < a * b -> 0 < b -> 0 < a. Proof. intros. nra. Qed.
Lemma dln a b : a * b < 0 -> 0 < a -> b < 0. Proof. intros. nra. Qed.
Lemma drn a b : a * b < 0 -> 0 < b -> a < 0. Proof. intros. nra. Qed.
Lemma dnn a b : 0 < a * b -> a < 0 -> b < 0. Proof. intros. nra. Qed.
Lemma ddn a b : 0 < a * b -> b < 0 -> a < 0. Proof. intros. nra. Qed.
Ltac ms := first [apply mpp; assumption|apply mpn; assumption|apply mnp; assumption|apply mnn; assumption].
Lemma diag_alg a b c z u w : 0 < side a b c -> inside3 a b c z -> side b z u * side b z w < 0 -> side u w b * side u w z < 0 ->
  0 < side c a u -> outside3 a b c u -> (w <> a -> disj u w a b) -> (w <> c -> disj u w b c) -> False.
Proof.
  intros AR (Z1 & Z2 & Z3) HK HF PU OU D1 D2. destruct (cross_weights b z u w HK HF) as (al & be & ga & de & Pa & Pb & Pg & Pd & _ & AV).
  pose proof (AV a b) as Aab. pose proof (AV b c) as Abc. assert (E1 : side a b b = 0) by (unfold side; ring). assert (E2 : side b c b = 0) by (unfold side; ring). rewrite E1 in Aab. rewrite E2 in Abc. clear E1 E2 AV.
  pose proof (bary a b c u w u) as BU. pose proof (bary a b c u w z) as BZ. assert (E : side u w u = 0) by (unfold side; ring). rewrite E, Rmult_0_r in BU. clear E.
  unfold disj, outside3 in *.
  assert (Wa : w = a -> side u w a = 0 /\ side a b w = 0) by (intros ->; split; unfold side; ring). assert (Wc : w = c -> side u w c = 0 /\ side b c w = 0) by (intros ->; split; unfold side; ring).
  assert (DA : side a b w <> 0 -> 0 < side u w a * side u w b \/ 0 < side a b u * side a b w) by (intros N; apply D1; intros E; apply N, (Wa E)).
  assert (DC : side b c w <> 0 -> 0 < side u w b * side u w c \/ 0 < side b c u * side b c w) by (intros N; apply D2; intros E; apply N, (Wc E)).
  assert (DA2 : side u w a <> 0 -> 0 < side u w a * side u w b \/ 0 < side a b u * side a b w) by (intros N; apply D1; intros E; apply N, (Wa E)).
  assert (DC2 : side u w c <> 0 -> 0 < side u w b * side u w c \/ 0 < side b c u * side b c w) by (intros N; apply D2; intros E; apply N, (Wc E)).
  clear D1 D2 Wa Wc.
  set (fa := side u w a) in *. set (fb := side u w b) in *. set (fc := side u w c) in *. set (fz := side u w z) in *.
  set (pu := side a b u) in *. set (qu := side b c u) in *. set (ru := side c a u) in *. set (pw := side a b w) in *. set (qw := side b c w) in *.
  set (pz := side a b z) in *. set (qz := side b c z) in *. set (rz := side c a z) in *. set (ar := side a b c) in *.
  clearbody fa fb fc fz pu qu ru pw qw pz qz rz ar. clear HK.
  assert (Gp : 0 < al * pu + be * pw) by (assert (0 < ga * pz) by ms; lra). assert (Gq : 0 < al * qu + be * qw) by (assert (0 < ga * qz) by ms; lra). clear Aab Abc.
  apply neg_cases in HF.
  destruct OU as [O|[O|O]]; [| |lra].
  - assert (al * pu < 0) by ms. assert (0 < pw) by (apply (dl be); lra). assert (pu * pw < 0) by ms. assert (F1 : 0 < fa * fb) by (destruct DA; lra). clear DA DA2.
    assert (QW : qw < 0 -> 0 < qu * qw -> False) by (intros Q1 Q2; assert (qu < 0) by (apply (ddn _ _ Q2 Q1)); assert (al * qu < 0) by ms; assert (be * qw < 0) by ms; lra).
    destruct HF as [[J1 J2]|[J1 J2]].
    + assert (0 < fa) by (apply (dr _ fb); assumption). assert (fc < 0). { assert (ar * fz < 0) by ms. assert (0 < qz * fa) by ms. assert (0 < rz * fb) by ms. apply (dln pz); lra. }
      assert (0 < pu * fc) by ms. assert (0 < ru * fb) by ms. assert (qu < 0) by (apply (drn _ fa); lra). assert (fb * fc < 0) by ms. assert (0 < qu * qw) by (destruct DC2; lra). apply QW; [|assumption]. apply (dnn qu); assumption.
    + assert (fa < 0) by (apply (ddn _ fb); assumption). assert (0 < fc). { assert (0 < ar * fz) by ms. assert (qz * fa < 0) by ms. assert (rz * fb < 0) by ms. apply (dl pz); lra. }
      assert (pu * fc < 0) by ms. assert (ru * fb < 0) by ms. assert (qu < 0) by (apply (ddn _ fa); lra). assert (fb * fc < 0) by ms. assert (0 < qu * qw) by (destruct DC2; lra). apply QW; [|assumption]. apply (dnn qu); assumption.
  - assert (al * qu < 0) by ms. assert (0 < qw) by (apply (dl be); lra). assert (qu * qw < 0) by ms. assert (F1 : 0 < fb * fc) by (destruct DC; lra). clear DC DC2.
    assert (QW : pw < 0 -> 0 < pu * pw -> False) by (intros Q1 Q2; assert (pu < 0) by (apply (ddn _ _ Q2 Q1)); assert (al * pu < 0) by ms; assert (be * pw < 0) by ms; lra).
    destruct HF as [[J1 J2]|[J1 J2]].
    + assert (0 < fc) by (apply (dl fb); assumption). assert (fa < 0). { assert (ar * fz < 0) by ms. assert (0 < pz * fc) by ms. assert (0 < rz * fb) by ms. apply (dln qz); lra. }
      assert (0 < qu * fa) by ms. assert (0 < ru * fb) by ms. assert (pu < 0) by (apply (drn _ fc); lra). assert (fa * fb < 0) by ms. assert (0 < pu * pw) by (destruct DA2; lra). apply QW; [|assumption]. apply (dnn pu); assumption.
    + assert (fc < 0) by (apply (dnn fb); assumption). assert (0 < fa). { assert (0 < ar * fz) by ms. assert (pz * fc < 0) by ms. assert (rz * fb < 0) by ms. apply (dl qz); lra. }
      assert (qu * fa < 0) by ms. assert (ru * fb < 0) by ms. assert (pu < 0) by (apply (ddn _ fc); lra). assert (fa * fb < 0) by ms. assert (0 < pu * pw) by (destruct DA2; lra). apply QW; [|assumption]. apply (dnn pu); assumption.
Qed.

Section Top.
Variables (a b c : pt) (R0 : list pt).
Local Notation PP := (b :: c :: R0 ++ [a]).
Hypothesis T : tame PP.
Hypothesis TB : top PP b.
Hypothesis L : 0 < side a b c.
Lemma Sab : In (a, b) (psides PP).
Proof. rewrite psides_consec. change (b :: (c :: R0 ++ [a]) ++ [b]) with ((b :: c :: R0 ++ [a]) ++ [b]). replace ((b :: c :: R0 ++ [a]) ++ [b]) with ((b :: c :: R0) ++ a :: [b]) by (cbn; rewrite <- app_assoc; reflexivity). rewrite consec_join. apply in_app_iff. right. left. reflexivity. Qed.
Lemma Sbc : In (b, c) (psides PP). Proof. rewrite psides_consec. left. reflexivity. Qed.
Lemma Ia : In a PP. Proof. apply (psides_in _ _ _ Sab). Qed.
Lemma Ib : In b PP. Proof. left. reflexivity. Qed.
Lemma Ic : In c PP. Proof. right. left. reflexivity. Qed.
Lemma Ir v : In v R0 -> In v PP /\ v <> a /\ v <> b /\ v <> c.
Proof.
  intros I. pose proof (t_nd _ T) as ND. inversion ND as [|? ? NB ND1]; subst. inversion ND1 as [|? ? NC ND2]; subst.
  split; [right; right; apply in_app_iff; auto|]. split; [|split].
  - intros ->. apply NoDup_remove_2 in ND2. apply ND2. rewrite app_nil_r. exact I.
  - intros ->. apply NB. right. apply in_app_iff. auto.
  - intros ->. apply NC. apply in_app_iff. auto.
Qed.
Lemma in_PP v : In v PP -> v <> a -> v <> b -> v <> c -> In v R0.
Proof. intros I A B C. cbn in I. rewrite in_app_iff in I. cbn in I. intuition congruence. Qed.
Lemma nabc : a <> b /\ b <> c /\ a <> c.
Proof. split; [apply (s_neq _ T), Sab|]. split; [apply (s_neq _ T), Sbc|]. apply (s_ends _ T _ _ _ Sab Sbc). Qed.
Lemma in_or_out v : In v R0 -> inside3 a b c v \/ outside3 a b c v.
Proof.
  intros I. destruct (Ir v I) as (Iv & N1 & N2 & N3), nabc as (M1 & M2 & M3).
  assert (side a b v <> 0) by (apply (t_gp _ T); auto using Ia, Ib, Ic). assert (side b c v <> 0) by (apply (t_gp _ T); auto using Ia, Ib, Ic). assert (side c a v <> 0) by (apply (t_gp _ T); auto using Ia, Ib, Ic).
  unfold inside3, outside3. destruct (Rlt_dec 0 (side a b v)), (Rlt_dec 0 (side b c v)), (Rlt_dec 0 (side c a v)); first [left; repeat split; assumption|right; lra].
Qed.
Lemma top_chord z : In z R0 -> inside3 a b c z -> (forall v, In v R0 -> inside3 a b c v -> side c a v <= side c a z) -> clear PP b z.
Proof.
  intros Iz IZ M u w I N1 N2 N3 N4. destruct (psides_in _ _ _ I) as [Iu Iw]. pose proof (s_neq _ T _ _ I) as Nuw. destruct (Ir z Iz) as (Iz' & Z1 & Z2 & Z3), nabc as (M1 & M2 & M3).
  pose proof (t_gp _ T) as GP.
  destruct (Rlt_dec 0 (side u w b * side u w z)) as [P|P]; [left; exact P|]. destruct (Rlt_dec 0 (side b z u * side b z w)) as [Q|Q]; [right; exact Q|]. exfalso.
  assert (HF : side u w b * side u w z < 0). { apply neg_pp in P; [destruct P as [[? ?]|[? ?]]; nra| |]; apply GP; auto using Ib. }
  assert (HK : side b z u * side b z w < 0). { apply neg_pp in Q; [destruct Q as [[? ?]|[? ?]]; nra| |]; apply GP; auto using Ib. }
  destruct (cross_weights b z u w HK HF) as (al & be & ga & de & Pa & Pb & Pg & Pd & SU & AV). pose proof (AV c a) as AS.
  assert (SB : side c a z < side c a b). { destruct IZ as (I1 & I2 & I3). assert (side a b z + side b c z + side c a z = side c a b) by (unfold side; ring). lra. }
  assert (SZ : 0 < side c a z) by apply IZ.
  assert (BIG : forall p, In p PP -> p <> b -> side c a z < side c a p -> p <> a /\ p <> c /\ outside3 a b c p).
  { intros p Ip Np S. assert (Na : p <> a) by (intros ->; assert (side c a a = 0) by (unfold side; ring); lra). assert (Nc : p <> c) by (intros ->; assert (side c a c = 0) by (unfold side; ring); lra).
    split; [exact Na|]. split; [exact Nc|]. pose proof (in_PP p Ip Na Np Nc) as Ir0. destruct (in_or_out p Ir0) as [IN|]; [|assumption]. pose proof (M p Ir0 IN). lra. }
  pose proof (t_simple _ T) as SI.
  destruct (Rlt_dec (side c a z) (side c a u)) as [BU|BU].
  - destruct (BIG u Iu N1 BU) as (Na & Nc & OU). apply (diag_alg a b c z u w); auto; [lra| |].
    + intros Nw. apply (SI _ _ _ _ I Sab); auto.
    + intros Nw. apply (SI _ _ _ _ I Sbc); auto.
  - assert (BW : side c a z < side c a w). { destruct (Rlt_dec (side c a z) (side c a w)); [assumption|]. exfalso. assert (ga * side c a z + de * side c a b <= al * side c a z + be * side c a z) by nra. assert (al * side c a z + be * side c a z = ga * side c a z + de * side c a z) by (rewrite <- !Rmult_plus_distr_r, SU; reflexivity). nra. }
    destruct (BIG w Iw N3 BW) as (Na & Nc & OW).
    assert (HF' : side w u b * side w u z < 0) by (rewrite !(side_sym u w); lra). assert (HK' : side b z w * side b z u < 0) by lra.
    apply (diag_alg a b c z w u); auto; [lra| |].
    + intros Nw. apply disj_swap. apply (SI _ _ _ _ I Sab); auto.
    + intros Nw. apply disj_swap. apply (SI _ _ _ _ I Sbc); auto.
Qed.
Definition divides (l : list pt) : Prop := exists u w M N l1 l2, l = l1 ++ l2 /\ l2 ++ l1 = u :: M ++ w :: N /\ M <> [] /\ N <> [] /\ good (u :: M ++ [w]) /\ good (w :: N ++ [u]).
Lemma good_here : good PP.
Proof. split; [exact T|]. exists a, b, c. auto using Sab, Sbc. Qed.
Lemma top_divides : R0 <> [] -> divides PP.
Proof.
  intros NR. destruct (argmin_in (fun v => - side c a v) (inside3 a b c)) with (l := R0) as [E|(z & Iz & IZ & M)].
  { intros v. unfold inside3. destruct (Rlt_dec 0 (side a b v)), (Rlt_dec 0 (side b c v)), (Rlt_dec 0 (side c a v)); tauto. }
  - (* an ear at the top *)
    assert (ROT : good (a :: b :: c :: R0)) by (apply (good_rot (b :: c :: R0) [a]), good_here).
    assert (O : forall v, In v R0 -> outside3 a b c v) by (intros v I; destruct (in_or_out v I) as [X|X]; [exfalso; apply (E v I X)|exact X]).
    exists a, c, [b], R0, (b :: c :: R0), [a]. split; [reflexivity|]. split; [reflexivity|]. split; [discriminate|]. split; [exact NR|]. split.
    + cbn [app]. split; [apply (half_tame a c [b] R0); [apply ROT|discriminate|apply corner_clear; [apply ROT|exact L|exact O]]|].
      exists a, b, c. split; [left; reflexivity|]. split; [right; left; reflexivity|]. split; [|exact L].
      intros v [<-|[<-|[<-|[]]]]; apply TB; [apply Ia|apply Ib|apply Ic].
    + apply (corner_good a b c R0 ROT L O NR).
  - assert (C : clear PP b z) by (apply top_chord; auto; intros v Iv Jv; pose proof (M v Iv Jv); lra).
    destruct (in_split _ _ Iz) as (R1 & R2 & ER).
    assert (EP : PP = b :: (c :: R1) ++ z :: (R2 ++ [a])) by (rewrite ER; cbn; rewrite <- app_assoc; reflexivity).
    exists b, z, (c :: R1), (R2 ++ [a]), [], PP. split; [reflexivity|]. split; [rewrite app_nil_r; exact EP|]. split; [discriminate|]. split; [intros F; apply app_eq_nil in F; destruct F; discriminate|].
    destruct IZ as (I1 & I2 & I3). pose proof T as T'. pose proof TB as TB'. rewrite EP in T', C, TB'. split.
    + split; [apply (half_tame b z (c :: R1) (R2 ++ [a])); [exact T'|discriminate|exact C]|].
      exists z, b, c. split; [rewrite sides_half; apply in_app_iff; right; left; reflexivity|]. split; [rewrite psides_consec; left; reflexivity|]. split.
      * intros v Hv. apply TB'. cbn in Hv |- *. rewrite in_app_iff in Hv |- *. cbn in *. tauto.
      * replace (side z b c) with (side b c z) by (unfold side; ring). exact I2.
    + split; [apply (other_tame b z (c :: R1) (R2 ++ [a])); [exact T'|intros F; apply app_eq_nil in F; destruct F; discriminate|exact C]|].
      exists a, b, z. split.
      { rewrite psides_consec. replace (z :: ((R2 ++ [a]) ++ [b]) ++ [z]) with ((z :: R2) ++ a :: [b; z]) by (cbn; rewrite <- !app_assoc; reflexivity). rewrite consec_join. apply in_app_iff. right. left. reflexivity. }
      split; [rewrite sides_half; apply in_app_iff; right; left; reflexivity|]. split; [|exact I1].
      intros v Hv. apply TB'. cbn in Hv |- *. rewrite !in_app_iff in *. cbn in *. rewrite !in_app_iff. cbn. tauto.
Qed.
End Top.
(* a corner moved to the front *)
Lemma corner_front (l : list pt) a b c : NoDup l -> (3 <= length l)%nat -> In (a, b) (psides l) -> In (b, c) (psides l) ->
  exists l1 l2 R0, l = l1 ++ l2 /\ l2 ++ l1 = b :: c :: R0 ++ [a].
Proof.
  intros D LN H K. destruct (psides_in _ _ _ H) as [_ Ib]. destruct (rot_to l b Ib) as (l1 & l2 & r & E & F). exists l1, l2.
  assert (ND : NoDup (b :: r)) by (rewrite <- F; apply (Permutation_NoDup (rot_perm l1 l2)); rewrite <- E; exact D).
  assert (H' : In (a, b) (psides (b :: r))) by (rewrite <- F; apply (Permutation_in _ (psides_rot l1 l2)); rewrite <- E; exact H).
  assert (K' : In (b, c) (psides (b :: r))) by (rewrite <- F; apply (Permutation_in _ (psides_rot l1 l2)); rewrite <- E; exact K).
  assert (LR : (3 <= length (b :: r))%nat) by (rewrite <- F, (Permutation_length (rot_perm l2 l1)), <- E; exact LN).
  destruct r as [|c' r]; [cbn in LR; lia|]. destruct (exists_last (l := r)) as (R0 & a' & ->); [destruct r; [cbn in LR; lia|discriminate]|].
  assert (c = c') as -> by (apply (next_unique _ _ _ _ ND K'); rewrite psides_consec; left; reflexivity).
  assert (a = a') as -> by (apply (prev_unique _ _ _ _ ND H'), Sab).
  exists R0. split; [exact E|exact F].
Qed.
Theorem good_divides l : good l -> (4 <= length l)%nat -> divides l.
Proof.
  intros (T & a & b & c & H & K & TB & L) LN. destruct (corner_front l a b c (t_nd _ T) ltac:(lia) H K) as (l1 & l2 & R0 & E & F).
  assert (T' : tame (b :: c :: R0 ++ [a])) by (rewrite <- F; apply tame_rot; rewrite <- E; exact T).
  assert (TB' : top (b :: c :: R0 ++ [a]) b) by (intros v I; apply TB; rewrite E; apply (Permutation_in _ (rot_perm l2 l1)); rewrite F; exact I).
  assert (LR : (4 <= length (b :: c :: R0 ++ [a]))%nat) by (rewrite <- F, (Permutation_length (rot_perm l2 l1)), <- E; exact LN).
  destruct (top_divides a b c R0 T' TB' L) as (u & w & M & N & m1 & m2 & E2 & F2 & HM & HN & G1 & G2); [intros ->; cbn in LR; lia|].
  (* rotation of a rotation *)
  rewrite <- F in E2. exists u, w, M, N.
  assert (RR : exists n1 n2, l = n1 ++ n2 /\ n2 ++ n1 = m2 ++ m1).
  { apply app_eq_app in E2. destruct E2 as (x & [[A1 A2]|[A1 A2]]); subst.
    - exists (l1 ++ m1), x. rewrite <- !app_assoc. auto.
    - exists x, (m2 ++ l2). rewrite <- !app_assoc. auto. }
  destruct RR as (n1 & n2 & E3 & F3). exists n1, n2. rewrite F3. auto 10.
Qed.
