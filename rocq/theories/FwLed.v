From Coq Require Import List ZArith Bool Lia.
From Verif Require Import FwModel FwSpec.
Import ListNotations.
Open Scope Z_scope.

(* invariant of every reachable LED state *)
Definition led_ok (l : led) : Prop :=
  0 <= pattern l < 256 /\ 0 <= index l <= 7 /\ 0 <= ticks l <= 500 /\ pin l = blink l.

Lemma land7 x : 0 <= Z.land x 7 <= 7.
Proof.
  change 7 with (Z.ones 3) at 1 2. rewrite Z.land_ones by lia.
  pose proof (Z.mod_pos_bound x (2 ^ 3) ltac:(lia)). change (2 ^ 3) with 8 in *. lia.
Qed.

Lemma led_tick_ok l : led_ok l -> led_ok (led_tick l).
Proof.
  intros (Hp & Hi & Ht & He). unfold led_tick. destruct (_ && _); [exact (conj Hp (conj Hi (conj Ht He)))|].
  destruct (ticks l + 1 <? LED_BLINK_TICKS) eqn:E.
  - apply Z.ltb_lt in E. unfold LED_BLINK_TICKS in E.
    repeat split; cbn [pattern index ticks blink pin]; try lia; assumption.
  - pose proof (land7 (index l + 1)).
    repeat split; cbn [pattern index ticks blink pin]; try lia.
Qed.

Lemma lstate_ok ops : Forall valid_pattern ops -> led_ok (lstate ops).
Proof.
  induction ops as [|o ops IH]; intros H.
  - unfold led_ok; cbn. unfold LED_BLINK_TICKS. repeat split; try lia; reflexivity.
  - inversion H as [|? ? Ho Hr]; subst. specialize (IH Hr). cbn [lstate].
    destruct o as [|p]; cbn [apply_lop].
    + apply led_tick_ok; exact IH.
    + unfold led_blink. destruct (p =? pattern (lstate ops)); [exact IH|].
      destruct IH as (Hp & Hi & Ht & He). cbn in Ho.
      repeat split; cbn [pattern index ticks blink pin]; try lia; try exact He; unfold LED_BLINK_TICKS; lia.
Qed.

Lemma bit_test p i : 0 <= i -> negb (Z.land p (Z.shiftl 1 i) =? 0) = Z.testbit p i.
Proof.
  intros Hi. rewrite Z.shiftl_mul_pow2, Z.mul_1_l by exact Hi.
  destruct (Z.testbit p i) eqn:E.
  - apply negb_true_iff, Z.eqb_neq. intros H0.
    assert (Z.testbit (Z.land p (2 ^ i)) i = false) by (rewrite H0; apply Z.bits_0).
    rewrite Z.land_spec, E, Z.pow2_bits_true in H by exact Hi. discriminate.
  - apply negb_false_iff, Z.eqb_eq. apply Z.bits_inj'. intros n Hn.
    rewrite Z.land_spec, Z.bits_0. destruct (Z.eq_dec n i) as [->|Hne].
    + rewrite E. reflexivity.
    + rewrite Z.pow2_bits_false by lia. apply andb_false_r.
Qed.

Lemma succ_mod8 i : 0 <= i <= 7 -> Z.land (i + 1) 7 = (i + 1) mod 8.
Proof.
  intros H. change 7 with (Z.ones 3). rewrite Z.land_ones by lia. reflexivity.
Qed.

(* state n+1 ticks after a change to a pattern p *)
Definition led_phase (p : Z) (n : Z) (l : led) : Prop :=
  pattern l = p /\
  pin l = Z.testbit p ((n / 500) mod 8) /\ blink l = pin l /\
  (p <> 0 -> index l = (n / 500) mod 8 /\ ticks l = n mod 500).

Lemma phase_step p n l :
  0 <= p < 256 -> 0 <= n -> led_phase p n l -> led_phase p (n + 1) (led_tick l).
Proof.
  intros Hpr Hn (Hp & Hpin & Hb & Hrest). unfold led_tick. rewrite Hp.
  destruct (Z.eq_dec p 0) as [->|Hp0].
  - rewrite Z.bits_0 in Hpin. rewrite Hb, Hpin. cbn [Z.eqb negb andb].
    split; [exact Hp|]. rewrite Z.bits_0. split; [exact Hpin|]. split; [exact Hb|].
    intros H; contradiction.
  - destruct (Hrest Hp0) as [Hi Ht]. clear Hrest.
    assert ((p =? 0) = false) as -> by (apply Z.eqb_neq; exact Hp0). cbn [andb].
    rewrite Hi, Ht. unfold LED_BLINK_TICKS.
    pose proof (Z.mod_pos_bound n 500 ltac:(lia)) as Hmb.
    pose proof (Z.div_mod n 500 ltac:(lia)) as Hdm.
    destruct (n mod 500 + 1 <? 500) eqn:E.
    + apply Z.ltb_lt in E.
      assert (Hd : (n + 1) / 500 = n / 500).
      { symmetry. apply (Z.div_unique (n+1) 500 (n/500) (n mod 500 + 1)); lia. }
      assert (Hm : (n + 1) mod 500 = n mod 500 + 1).
      { symmetry. apply (Z.mod_unique (n+1) 500 (n/500) (n mod 500 + 1)); lia. }
      unfold led_phase. rewrite Hd, Hm. cbn [pattern pin blink index ticks].
      rewrite Hpin in Hb. repeat split; auto; try congruence.
    + apply Z.ltb_ge in E.
      assert (Hd : (n + 1) / 500 = n / 500 + 1).
      { symmetry. apply (Z.div_unique (n+1) 500 (n/500 + 1) 0); lia. }
      assert (Hm : (n + 1) mod 500 = 0).
      { symmetry. apply (Z.mod_unique (n+1) 500 (n/500 + 1) 0); lia. }
      pose proof (Z.mod_pos_bound (n / 500) 8 ltac:(lia)) as Hm8.
      rewrite succ_mod8 by lia. rewrite Zplus_mod_idemp_l.
      rewrite bit_test by (apply Z.mod_pos_bound; lia).
      unfold led_phase. rewrite Hd, Hm. cbn [pattern pin blink index ticks]. auto.
Qed.

Lemma phase_start p l :
  0 <= p < 256 -> led_ok l -> p <> pattern l -> led_phase p 0 (led_tick (led_blink p l)).
Proof.
  intros Hp (Hpo & Hi & Ht & He) Hne. unfold led_blink.
  assert ((p =? pattern l) = false) as -> by (apply Z.eqb_neq; exact Hne).
  unfold led_tick. cbn [pattern blink ticks index pin].
  destruct ((p =? 0) && negb (blink l)) eqn:E.
  - apply andb_true_iff in E. destruct E as [E1 E2]. apply Z.eqb_eq in E1. apply negb_true_iff in E2.
    subst p. unfold led_phase. cbn [pattern blink ticks index pin]. rewrite Z.bits_0.
    repeat split; try congruence; intros H; contradiction.
  - assert ((LED_BLINK_TICKS + 1 <? LED_BLINK_TICKS) = false) as -> by reflexivity.
    change (Z.land (7 + 1) 7) with 0. rewrite bit_test by lia.
    unfold led_phase. cbn [pattern blink ticks index pin]. cbn. auto.
Qed.

Lemma iter_S_tick n l : nticks (S n) l = led_tick (nticks n l).
Proof. reflexivity. Qed.

Lemma led_pattern p l n :
  0 <= p < 256 -> led_ok l -> p <> pattern l -> (1 <= n)%nat ->
  pin (nticks n (led_blink p l)) = Z.testbit p (((Z.of_nat n - 1) / 500) mod 8).
Proof.
  intros Hp Hl Hne Hn.
  assert (H : forall k, led_phase p (Z.of_nat k) (nticks (S k) (led_blink p l))).
  { induction k as [|k IH].
    - apply phase_start; assumption.
    - rewrite iter_S_tick. replace (Z.of_nat (S k)) with (Z.of_nat k + 1) by lia.
      apply phase_step; [exact Hp|lia|exact IH]. }
  destruct n as [|n]; [lia|]. specialize (H n). destruct H as (_ & H & _).
  rewrite H. f_equal. f_equal. f_equal. lia.
Qed.

Lemma led_tick_pattern l : pattern (led_tick l) = pattern l.
Proof. unfold led_tick. destruct (_ && _); [reflexivity|]. destruct (_ <? _); reflexivity. Qed.

Lemma lstate_pattern ops : pattern (lstate ops) = last_pattern ops.
Proof.
  induction ops as [|o ops IH]; [reflexivity|]. cbn [lstate]. destruct o as [|p]; cbn [apply_lop last_pattern].
  - rewrite led_tick_pattern. exact IH.
  - unfold led_blink. destruct (p =? _) eqn:E; [apply Z.eqb_eq in E; symmetry; exact E|reflexivity].
Qed.
