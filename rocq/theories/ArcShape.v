(** The points of an arc that was made, over the reals, whatever the quality settings. *)
From Coq Require Import Reals Lra Psatz ZArith List Bool Arith Lia.
From Verif Require Import Num GeoModel EdgeModel GeoSpec GeoMat ArcModel ArcSpec ArcProof.
Import ListNotations.
Open Scope R_scope.

Section Arcs.
Variable q : @quality Rnum.
Lemma arc_shape (r s sp : R) (ce : pt) l : eps <= r -> @arc2D Rnum q r s sp ce = Ok l ->
  exists n k, l = map (fun i : nat => P (X ce + r * cos (s + INR i * (turn_limited sp / IZR n))) (Y ce + r * sin (s + INR i * (turn_limited sp / IZR n))) 0) (seq 0 (Z.to_nat (n + k))) /\ n <> 0%Z /\
    (k = 0 \/ k = 1)%Z /\ (k = 1%Z <-> eps < Rabs (Rabs (turn_limited sp) - 2 * PI)).
Proof.
  intros HR H. unfold arc2D in H. destruct (nltb (Num := Rnum) r (nQ 1 1000000)) eqn:C; [change (Rltb r (1 / 1000000) = true) in C; apply Rltb_true in C; unfold eps in HR; lra|].
  apply bind_ok in H. destruct H as (h & _ & H). apply bind_ok in H. destruct H as (a & _ & H). cbv zeta in H. apply bind_ok in H. destruct H as (cc & _ & H).
  apply bind_ok in H. destruct H as (ca & EC & H). apply Ok_inj in H. change (@tau Rnum) with (2 * PI) in *. rewrite pmin_R, pmax_R in *. set (n := nceil cc) in *.
  change (Rmax (@nopp Rnum (2 * PI)) (Rmin sp (2 * PI))) with (turn_limited sp) in *.
  destruct (Z.eqb_spec n 0) as [E|E]; [discriminate|]. apply Ok_inj in EC. subst ca.
  exists n, (if nltb (Num := Rnum) (nQ 1 1000000) (nabs (nsub (Num := Rnum) (nabs (Num := Rnum) (turn_limited sp)) (2 * PI))) then 1%Z else 0%Z). split; [|split; [exact E|split]].
  - rewrite <- H. apply map_ext. intros i. rewrite INR_IZR_INZ. reflexivity.
  - match goal with |- (if ?b then _ else _) = _ \/ _ => destruct b end; [right|left]; reflexivity.
  - match goal with |- (if ?b then _ else _) = _ <-> _ => destruct b eqn:C2 end; [change (Rltb eps (Rabs (Rabs (turn_limited sp) - 2 * PI)) = true) in C2; apply Rltb_true in C2|change (Rltb eps (Rabs (Rabs (turn_limited sp) - 2 * PI)) = false) in C2; apply Rltb_false in C2]; split; intros; try lra; try reflexivity; discriminate.
Qed.

(* an arc of less than a turn lies between its two directions *)
Lemma arc_between (r s sp : R) (ce : pt) l : r = 0 \/ eps <= r -> Rabs sp <= PI -> @arc2D Rnum q r s sp ce = Ok l -> Z ce = 0 ->
  forall p, In p l -> exists t, between s t (s + sp) /\ p = P (X ce + r * cos t) (Y ce + r * sin t) 0.
Proof.
  intros HR HS H ZC p IP. pose proof eps_pos as EP. pose proof PI_RGT_0 as PP. destruct HR as [HR|HR].
  - subst r. unfold arc2D in H. destruct (nltb (Num := Rnum) (0 : R) (nQ 1 1000000)) eqn:C; [|change (Rltb 0 eps = false) in C; apply Rltb_false in C; lra].
    apply Ok_inj in H. subst l. destruct IP as [<-|[]]. exists s. split; [unfold between; destruct (Rle_dec 0 sp); [left|right]; lra|]. apply pt_ext; [change (X ce = X ce + 0 * cos s); ring|change (Y ce = Y ce + 0 * sin s); ring|exact ZC].
  - destruct (arc_shape r s sp ce l HR H) as (n & k & EL & NZ & K & KF). rewrite turn_limited_id in * by lra.
    assert (K1 : k = 1%Z). { apply KF. rewrite Rabs_left1 by lra. pose proof PI2_3_2 as Q3. unfold eps, PI2 in *. lra. } subst k.
    rewrite EL in IP. apply in_map_iff in IP. destruct IP as (i & <- & IS). apply in_seq in IS.
    assert (N0 : (0 < n)%Z) by lia. set (m := Z.to_nat n) in *. assert (IN : IZR n = INR m) by (unfold m; rewrite INR_IZR_INZ, Z2Nat.id by lia; reflexivity).
    assert (M0 : 0 < INR m) by (apply lt_0_INR; unfold m; lia). assert (I0 : 0 <= INR i) by apply pos_INR. assert (IM : INR i <= INR m) by (apply le_INR; unfold m; lia).
    eexists. split; [|reflexivity]. rewrite IN.
    assert (Q : 0 <= INR i / INR m <= 1). { split; [apply Rmult_le_pos; [exact I0|left; apply Rinv_0_lt_compat, M0]|]. apply Rmult_le_reg_r with (INR m); [exact M0|]. unfold Rdiv. rewrite Rmult_assoc, Rinv_l by lra. lra. }
    replace (INR i * (sp / INR m)) with ((INR i / INR m) * sp) by (field; lra). unfold between. destruct (Rle_dec 0 sp); [left|right]; nra.
Qed.
Lemma arc_ends (r s sp : R) (ce : pt) l : r = 0 \/ eps <= r -> Rabs sp <= PI -> @arc2D Rnum q r s sp ce = Ok l -> Z ce = 0 -> l <> [] ->
  hd vzero l = P (X ce + r * cos s) (Y ce + r * sin s) 0 /\ last l vzero = P (X ce + r * cos (s + sp)) (Y ce + r * sin (s + sp)) 0.
Proof.
  intros HR HS H ZC NE. pose proof eps_pos as EP. pose proof PI_RGT_0 as PP. destruct HR as [HR|HR].
  - subst r. unfold arc2D in H. destruct (nltb (Num := Rnum) (0 : R) (nQ 1 1000000)) eqn:C; [|change (Rltb 0 eps = false) in C; apply Rltb_false in C; lra].
    apply Ok_inj in H. subst l. cbn [hd last]. split; (apply pt_ext; [match goal with |- _ = X (P ?a _ _) => change (X ce = a) end; ring|match goal with |- _ = Y (P _ ?a _) => change (Y ce = a) end; ring|exact ZC]).
  - destruct (arc_shape r s sp ce l HR H) as (n & k & EL & NZ & K & KF). rewrite turn_limited_id in * by lra.
    assert (K1 : k = 1%Z). { apply KF. rewrite Rabs_left1 by lra. pose proof PI2_3_2 as Q3. unfold eps, PI2 in *. lra. } subst k.
    assert (N0 : (0 < n)%Z). { destruct (Z.lt_trichotomy n 0) as [L|[L|L]]; [|contradiction|exact L]. exfalso. apply NE. rewrite EL. replace (Z.to_nat (n + 1)) with 0%nat by lia. reflexivity. }
    set (m := Z.to_nat n) in *. assert (EN : Z.to_nat (n + 1) = S m) by (unfold m; lia). assert (IN : IZR n = INR m) by (unfold m; rewrite INR_IZR_INZ, Z2Nat.id by lia; reflexivity).
    assert (M0 : 0 < INR m) by (apply lt_0_INR; unfold m; lia). rewrite EN in EL. rewrite EL. split.
    + cbn [seq map hd]. replace (s + INR 0 * (sp / IZR n)) with s by (cbn [INR]; ring). reflexivity.
    + rewrite seq_S, map_app. cbn [map Nat.add]. rewrite last_last. rewrite IN. replace (INR m * (sp / INR m)) with sp by (field; lra). reflexivity.
Qed.
(* a full circle *)
Lemma arc_circle (r : R) (ce : pt) l : eps <= r -> @arc2D Rnum q r (nZ 0) tau ce = Ok l ->
  exists n : nat, l = map (fun i : nat => P (X ce + r * cos (INR i * (2 * PI / INR n))) (Y ce + r * sin (INR i * (2 * PI / INR n))) 0) (seq 0 n).
Proof.
  intros HR H. pose proof eps_pos as EP. pose proof PI_RGT_0 as PP. destruct (arc_shape r _ _ ce l HR H) as (n & k & EL & NZ & K & KF).
  change (@tau Rnum) with (2 * PI) in *. rewrite turn_limited_id in * by (rewrite Rabs_right; lra).
  assert (K0 : k = 0%Z). { destruct K as [K|K]; [exact K|]. apply KF in K. rewrite (Rabs_right (2 * PI)) in K by lra. replace (2 * PI - 2 * PI) with 0 in K by ring. rewrite Rabs_R0 in K. lra. } subst k. rewrite Z.add_0_r in EL.
  exists (Z.to_nat n). rewrite EL. destruct (Z.lt_trichotomy n 0) as [L|[L|L]]; [replace (Z.to_nat n) with 0%nat by lia; reflexivity|contradiction|].
  apply map_ext. intros i. assert (IN : IZR n = INR (Z.to_nat n)) by (rewrite INR_IZR_INZ, Z2Nat.id by lia; reflexivity). rewrite IN. change (@nZ Rnum 0) with 0. rewrite Rplus_0_l. reflexivity.
Qed.
End Arcs.
