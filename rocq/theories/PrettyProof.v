(** Proofs about pretty. *)
From Flocq Require Import Core.Core BinarySingleNaN.
From Coq Require Import Ascii String ZArith Reals Lra Lia List Bool.
From Verif Require Import PrettyModel PrettySpec.
Import ListNotations.
Open Scope string_scope.

Lemma roundDiv_spec n d : (0 < d)%Z -> rounds_to (IZR n / IZR d) (roundDiv n d).
Proof.
  intros D. unfold roundDiv. assert (E := Z.div_mod n d ltac:(lia)). assert (B := Z.mod_pos_bound n d D). set (q := (n / d)%Z) in *. set (r := (n mod d)%Z) in *.
  assert (DR : (0 < IZR d)%R) by (apply IZR_lt; exact D).
  assert (F : forall k, (IZR n / IZR d - IZR k = IZR (n - k * d) / IZR d)%R).
  { intros k. rewrite minus_IZR, mult_IZR. field. lra. }
  assert (G : forall k, (2 * Z.abs (n - k * d) <= d)%Z -> ((2 * Z.abs (n - k * d) = d)%Z -> Z.even k = true) -> rounds_to (IZR n / IZR d) k).
  { intros k L T. unfold rounds_to. rewrite F. unfold Rdiv. rewrite Rabs_mult, <- abs_IZR, (Rabs_pos_eq (/ IZR d)) by (left; apply Rinv_0_lt_compat; exact DR).
    assert (H2 : (2 * IZR (Z.abs (n - k * d)) = IZR (2 * Z.abs (n - k * d)))%R) by (rewrite mult_IZR; reflexivity). split.
    - apply IZR_le in L. apply (Rmult_le_reg_r (IZR d)); [exact DR|]. rewrite Rmult_assoc, Rinv_l by lra. lra.
    - intros Q. apply T. apply eq_IZR. rewrite <- H2. apply (f_equal (fun z => z * IZR d)%R) in Q. rewrite Rmult_assoc, Rinv_l in Q by lra. lra. }
  destruct (Z.compare_spec (2 * r) d) as [C|C|C].
  - destruct (Z.even q) eqn:EV; apply G; try (intros _; assumption); try nia.
    intros _. rewrite Z.even_add, EV. reflexivity.
  - apply G; nia.
  - apply G; nia.
Qed.
Lemma thousandths_spec s m e H : rounds_to (1000 * Rabs (@B2R 53 1024 (B754_finite s m e H))) (thousandths m e).
Proof.
  assert (A : Rabs (@B2R 53 1024 (B754_finite s m e H)) = (IZR (Zpos m) * bpow radix2 e)%R).
  { cbn [B2R]. unfold F2R. cbn [Fnum Fexp]. rewrite Rabs_mult, (Rabs_pos_eq (bpow radix2 e)) by apply bpow_ge_0. f_equal. destruct s; cbn [cond_Zopp Z.opp]; rewrite <- abs_IZR; reflexivity. }
  rewrite A. unfold thousandths. destruct (Z.leb_spec 0 e) as [P|P].
  - replace (1000 * (IZR (Z.pos m) * bpow radix2 e))%R with (IZR (Z.pos m * 1000 * 2 ^ e)).
    + unfold rounds_to. rewrite Rminus_diag_eq by reflexivity. rewrite Rabs_R0. split; [lra|]. intros. lra.
    + rewrite !mult_IZR. rewrite <- (IZR_Zpower radix2 e P). cbn [radix_val radix2]. ring.
  - replace (1000 * (IZR (Z.pos m) * bpow radix2 e))%R with (IZR (Z.pos m * 1000) / IZR (2 ^ (- e)))%R.
    + apply roundDiv_spec. apply Z.pow_pos_nonneg; lia.
    + rewrite mult_IZR. replace (IZR (2 ^ (- e))) with (bpow radix2 (- e)) by (rewrite <- (IZR_Zpower radix2 (- e)) by lia; reflexivity). rewrite bpow_opp. unfold Rdiv. rewrite Rinv_inv. ring.
Qed.
Lemma thousandths_pos m e : (0 <= thousandths m e)%Z.
Proof.
  unfold thousandths. destruct (Z.leb_spec 0 e) as [P|P].
  - assert (0 <= 2 ^ e)%Z by (apply Z.pow_nonneg; lia). nia.
  - assert (D : (0 < 2 ^ (- e))%Z) by (apply Z.pow_pos_nonneg; lia). unfold roundDiv. assert (0 <= Z.pos m * 1000 / 2 ^ (- e))%Z by (apply Z.div_pos; lia). destruct (_ ?= _)%Z; try lia. destruct (Z.even _); lia.
Qed.

Lemma digit_cases (P : Z -> Prop) : P 0%Z -> P 1%Z -> P 2%Z -> P 3%Z -> P 4%Z -> P 5%Z -> P 6%Z -> P 7%Z -> P 8%Z -> P 9%Z -> forall d, (0 <= d < 10)%Z -> P d.
Proof.
  intros. assert (C : (d = 0 \/ d = 1 \/ d = 2 \/ d = 3 \/ d = 4 \/ d = 5 \/ d = 6 \/ d = 7 \/ d = 8 \/ d = 9)%Z) by lia.
  repeat (destruct C as [->|C]; [assumption|]). subst d. assumption.
Qed.
Lemma digit_of_char d : (0 <= d < 10)%Z -> digit_of (digitChar d) = Some d.
Proof. revert d. apply digit_cases; reflexivity. Qed.
Lemma digitChar_zero d : (0 < d < 10)%Z -> digitChar d <> "0"%char.
Proof. intros H E. assert (D := digit_of_char d ltac:(lia)). rewrite E in D. cbn in D. injection D as D. lia. Qed.
Lemma sapp_assoc a b c : ((a ++ b) ++ c = a ++ (b ++ c))%string.
Proof. induction a as [|x a IH]; cbn; [reflexivity|rewrite IH; reflexivity]. Qed.
Lemma sapp_nil a : (a ++ "" = a)%string.
Proof. induction a as [|x a IH]; cbn; [reflexivity|rewrite IH; reflexivity]. Qed.
Lemma read_app a : forall acc b i, read_digits acc a = Some i -> read_digits acc (a ++ b) = read_digits i b.
Proof. induction a as [|c a IH]; intros acc b i H; cbn in *; [congruence|]. destruct (digit_of c); [|discriminate]. apply IH. exact H. Qed.
Lemma decimal_spec fuel : forall n acc, (0 <= n < 2 ^ Z.of_nat fuel)%Z -> (0 < fuel)%nat -> exists ds, decimal fuel n acc = ds ++ acc /\
  read_digits 0 ds = Some n /\ (ds = "0" \/ exists c r, ds = String c r /\ c <> "0"%char).
Proof.
  induction fuel as [|fuel IH]; intros n acc B F; [lia|]. cbn [decimal]. assert (M := Z.mod_pos_bound n 10 ltac:(lia)). destruct (Z.ltb_spec n 10) as [L|L].
  - rewrite Z.mod_small by lia. exists (String (digitChar n) ""). split; [reflexivity|]. split; [cbn [read_digits]; rewrite digit_of_char by lia; f_equal; lia|].
    destruct (Z.eq_dec n 0) as [->|NZ]; [left; reflexivity|right; eexists _, _; split; [reflexivity|apply digitChar_zero; lia]].
  - assert (F0 : (0 < fuel)%nat) by (destruct fuel; [cbn in B; lia|lia]).
    destruct (IH (n / 10)%Z (String (digitChar (n mod 10)) acc)) as (ds & E & R1 & LD); [|exact F0|].
    + split; [apply Z.div_pos; lia|]. apply Z.div_lt_upper_bound; [lia|]. rewrite Nat2Z.inj_succ, Z.pow_succ_r in B by lia. nia.
    + exists (ds ++ String (digitChar (n mod 10)) ""). rewrite E, sapp_assoc. split; [reflexivity|]. split.
      * rewrite (read_app _ _ _ _ R1). cbn [read_digits]. rewrite digit_of_char by lia. f_equal. assert (Z.div_mod n 10 = Z.div_mod n 10) by reflexivity. assert (DM := Z.div_mod n 10 ltac:(lia)). lia.
      * destruct LD as [->|(c & r & -> & NE)]; [|right; eexists _, _; split; [reflexivity|exact NE]].
        cbn in R1. injection R1 as R1. exfalso. assert (1 <= n / 10)%Z by (apply Z.div_le_lower_bound; lia). lia.
Qed.
Lemma intString_spec n : (0 <= n)%Z -> read_digits 0 (intString n) = Some n /\ (intString n = "0" \/ exists c r, intString n = String c r /\ c <> "0"%char).
Proof.
  intros P. unfold intString. destruct (decimal_spec (S (Z.to_nat (Z.log2 n))) n "") as (ds & E & R1 & L); [|lia|].
  - split; [exact P|]. rewrite Nat2Z.inj_succ, Z2Nat.id by apply Z.log2_nonneg. destruct (Z.eq_dec n 0) as [->|NZ]; [reflexivity|]. apply Z.log2_spec. lia.
  - rewrite E, sapp_nil. auto.
Qed.

Lemma rstrip_app c a : forall b, rstrip c b <> "" -> rstrip c (a ++ b) = a ++ rstrip c b.
Proof.
  induction a as [|d a IH]; intros b H; [reflexivity|]. cbn [append rstrip]. rewrite IH by exact H. destruct (a ++ rstrip c b) eqn:E; [|reflexivity].
  exfalso. apply H. destruct a; [exact E|discriminate].
Qed.
Lemma rstrip_app_nil c a b : rstrip c b = "" -> rstrip c (a ++ b) = rstrip c a.
Proof. intros H. induction a as [|d a IH]; [exact H|]. cbn [append rstrip]. rewrite IH. reflexivity. Qed.
Lemma digits_rstrip_dot s : forall acc i, s <> "" -> read_digits acc s = Some i -> rstrip "." s = s.
Proof.
  induction s as [|c s IH]; intros acc i NE H; [congruence|]. cbn [read_digits] in H. destruct (digit_of c) as [d|] eqn:D; [|discriminate]. cbn [rstrip].
  destruct s as [|c' s].
  - cbn. destruct (Ascii.eqb_spec c "."); [subst c; discriminate|reflexivity].
  - rewrite (IH _ _ ltac:(discriminate) H). reflexivity.
Qed.
(* the fraction: all thousand cases *)
Definition stripped (n : Z) : string := rstrip "." (rstrip "0" ("." ++ threeDigits n)).
Definition fraction (n : Z) : string := match stripped n with EmptyString => "" | String _ fp => fp end.
Fixpoint last_char (s : string) : ascii := match s with EmptyString => " " | String c "" => c | String _ r => last_char r end.
Definition fraction_check (n : Z) : bool :=
  String.eqb (stripped n) (match fraction n with "" => "" | fp => "." ++ fp end) &&
  (String.length (fraction n) <=? 3)%nat && negb (Ascii.eqb (last_char (fraction n)) "0") &&
  String.eqb (rstrip "." (rstrip "0" ("." ++ threeDigits n))) (if String.eqb (rstrip "0" ("." ++ threeDigits n)) "." then "" else rstrip "0" ("." ++ threeDigits n)) &&
  match rstrip "0" ("." ++ threeDigits n) with "" => false | _ => true end &&
  match read_digits 0 (fraction n) with Some f => (f * 10 ^ (3 - Z.of_nat (String.length (fraction n))) =? n)%Z | None => false end.
Lemma fraction_all n : (0 <= n < 1000)%Z -> fraction_check n = true.
Proof.
  intros B. assert (A : forallb (fun k => fraction_check (Z.of_nat k)) (seq 0 1000) = true) by (vm_compute; reflexivity).
  rewrite forallb_forall in A. rewrite <- (Z2Nat.id n) by lia. apply A. apply in_seq. lia.
Qed.
Lemma last_char_app p c : last_char (p ++ String c "") = c.
Proof. induction p as [|d p IH]; [reflexivity|]. cbn [append last_char]. destruct (p ++ String c "") eqn:E; [destruct p; discriminate|exact IH]. Qed.
Lemma fixed3_strip neg q : (0 <= q)%Z -> exists ip fp, rstrip "." (rstrip "0" ((if neg : bool then "-" else "") ++ fixed3 q)) = number_text neg ip fp /\ tidy ip fp /\ reads_as ip fp (IZR q / 1000).
Proof.
  intros P. unfold fixed3. set (i := intString (q / 1000)). set (n := (q mod 1000)%Z).
  assert (BN : (0 <= n < 1000)%Z) by (apply Z.mod_pos_bound; lia). assert (C := fraction_all n BN). unfold fraction_check in C. rewrite !andb_true_iff in C.
  destruct C as [[[[[C1 C2] C3] C4] C5] C6]. apply String.eqb_eq in C1. apply Nat.leb_le in C2. apply negb_true_iff in C3. apply Ascii.eqb_neq in C3. apply String.eqb_eq in C4.
  destruct (intString_spec (q / 1000) ltac:(apply Z.div_pos; lia)) as [RI LI]. fold i in RI, LI. assert (NI : i <> "") by (destruct LI as [->|(c & r & -> & _)]; discriminate).
  exists i, (fraction n). split; [|split].
  - rewrite (rstrip_app "0" _ (i ++ "." ++ threeDigits n)).
    2:{ rewrite rstrip_app; [|destruct (rstrip "0" ("." ++ threeDigits n)); [discriminate|discriminate]]. destruct i; [congruence|discriminate]. }
    rewrite (rstrip_app "0" i) by (destruct (rstrip "0" ("." ++ threeDigits n)); [discriminate|discriminate]).
    set (y := rstrip "0" ("." ++ threeDigits n)) in *. unfold number_text. unfold stripped in C1. fold y in C1.
    assert (RD : rstrip "." i = i) by (eapply digits_rstrip_dot; eauto).
    destruct (rstrip "." y) as [|c r] eqn:RY.
    + assert (RX : rstrip "." (i ++ y) = i) by (rewrite rstrip_app_nil by exact RY; exact RD).
      rewrite rstrip_app by (rewrite RX; exact NI). rewrite RX. destruct (fraction n) eqn:FN; [rewrite sapp_nil; reflexivity|discriminate].
    + assert (RX : rstrip "." (i ++ y) = i ++ rstrip "." y) by (apply rstrip_app; rewrite RY; discriminate).
      rewrite rstrip_app by (rewrite RX, RY; destruct i; discriminate). rewrite RX, RY. f_equal. f_equal. rewrite C1. destruct (fraction n); reflexivity.
  - split; [exact LI|]. split; [exact C2|]. intros p E. apply C3. rewrite E. apply last_char_app.
  - destruct (read_digits 0 (fraction n)) as [f|] eqn:RF; [|discriminate]. apply Z.eqb_eq in C6. exists (q / 1000)%Z, f. split; [exact RI|]. split; [exact RF|].
    assert (DM := Z.div_mod q 1000 ltac:(lia)). fold n in DM. rewrite <- C6 in DM.
    assert (QR : IZR q = (1000 * IZR (q / 1000) + IZR f * IZR (10 ^ (3 - Z.of_nat (String.length (fraction n)))))%R) by (rewrite DM at 1; rewrite plus_IZR, !mult_IZR; reflexivity).
    destruct (String.length (fraction n)) as [|[|[|[|k]]]]; [| | | |lia]; cbn in QR; cbn [pow]; lra.
Qed.
Lemma digit_nonneg c d : digit_of c = Some d -> (0 <= d)%Z /\ (d = 0%Z -> c = "0"%char).
Proof. intros D. destruct c as [[] [] [] [] [] [] [] []]; try discriminate D; injection D as <-; (split; [lia|intros Q; try lia; reflexivity]). Qed.
Lemma read_nonneg s : forall acc k, (0 <= acc)%Z -> read_digits acc s = Some k -> (acc <= k)%Z.
Proof.
  induction s as [|c s IH]; intros acc k P H; cbn [read_digits] in H; [injection H as <-; lia|]. destruct (digit_of c) as [d|] eqn:D; [|discriminate].
  destruct (digit_nonneg c d D) as [D1 _]. assert (K := IH (acc * 10 + d)%Z k ltac:(lia) H). lia.
Qed.
Lemma read_zero s : forall acc, (0 <= acc)%Z -> read_digits acc s = Some 0%Z -> s = "" \/ (exists p, s = p ++ "0") /\ exists r, s = String "0" r.
Proof.
  induction s as [|c s IH]; intros acc P H; [left; reflexivity|]. right. cbn [read_digits] in H. destruct (digit_of c) as [d|] eqn:D; [|discriminate].
  destruct (digit_nonneg c d D) as [D1 D2]. assert (K := read_nonneg _ (acc * 10 + d)%Z _ ltac:(lia) H). assert (DZ : d = 0%Z) by lia. rewrite (D2 DZ). split; [|exists s; reflexivity].
  destruct (IH (acc * 10 + d)%Z ltac:(lia) H) as [->|((p & ->) & _)]; [exists ""; reflexivity|exists (String "0" p); reflexivity].
Qed.
Lemma zero_text ip fp q : tidy ip fp -> reads_as ip fp (IZR q / 1000) -> (q = 0%Z <-> ip ++ match fp with "" => "" | _ => "." ++ fp end = "0").
Proof.
  intros (L & LF & NZ) (i & f & RI & RF & V).
  assert (P10 : (0 < / 10 ^ String.length fp)%R) by (apply Rinv_0_lt_compat; apply pow_lt; lra).
  assert (FI := read_nonneg _ _ _ (Z.le_refl 0) RI). assert (FF := read_nonneg _ _ _ (Z.le_refl 0) RF). apply IZR_le in FI, FF. split.
  - intros ->. unfold Rdiv in V. assert (I0 : i = 0%Z) by (apply eq_IZR; nra).
    assert (F0 : f = 0%Z). { apply eq_IZR. rewrite I0 in V. assert (V' : (IZR f * / 10 ^ String.length fp = 0)%R) by lra. apply Rmult_integral in V'. destruct V' as [V'|V']; [exact V'|lra]. }
    subst i f. assert (E1 : fp = "") by (destruct (read_zero _ _ (Z.le_refl 0) RF) as [E|((p & E) & _)]; [exact E|exfalso; exact (NZ p E)]).
    assert (E2 : ip = "0") by (destruct L as [E|(c & r & E & N)]; [exact E|]; destruct (read_zero _ _ (Z.le_refl 0) RI) as [Q|(_ & r' & Q)]; [congruence|]; rewrite E in Q; injection Q as Q _; contradiction).
    rewrite E1, E2. reflexivity.
  - intros E. assert (E' : ip = "0" /\ fp = "").
    { destruct L as [->|(c & r & -> & N)]; [|cbn in E; injection E as E _; contradiction]. destruct fp; [auto|discriminate]. }
    destruct E' as [-> ->]. cbn in RI, RF. injection RI as <-. injection RF as <-. cbn in V. apply eq_IZR. lra.
Qed.
