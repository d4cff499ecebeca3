From Coq Require Import List ZArith Bool Lia.
From Verif Require Import FwModel FwSpec.
Import ListNotations.
Open Scope Z_scope.

Definition nz (c : Z) : bool := negb (c =? 0).

Lemma existsb_eqb_In c l : existsb (Z.eqb c) l = true <-> In c l.
Proof.
  rewrite existsb_exists. split.
  - intros (x & Hx & E). apply Z.eqb_eq in E. subst. exact Hx.
  - intros H. exists c. split; [exact H|apply Z.eqb_refl].
Qed.

Lemma fill_slot_spec c l l' :
  fill_slot c l = Some l' ->
  exists u v, l = u ++ 0 :: v /\ l' = u ++ c :: v /\ ~ In 0 u.
Proof.
  revert l'; induction l as [|x l IH]; cbn [fill_slot]; intros l' H; [discriminate|].
  destruct (x =? 0) eqn:E.
  - apply Z.eqb_eq in E. subst. inversion H; subst. exists [], l. cbn. auto.
  - destruct (fill_slot c l) as [r'|] eqn:F; [|discriminate]. inversion H; subst.
    destruct (IH _ eq_refl) as (u & v & -> & -> & Hu). exists (x :: u), v.
    split; [reflexivity|]. split; [reflexivity|]. cbn. intros [->|H1]; [rewrite Z.eqb_refl in E; discriminate|auto].
Qed.

Lemma fill_slot_none c l : fill_slot c l = None <-> existsb (Z.eqb 0) l = false.
Proof.
  induction l as [|x l IH]; cbn [fill_slot existsb]; [tauto|].
  rewrite (Z.eqb_sym 0 x). destruct (x =? 0); cbn [orb].
  - split; discriminate.
  - destruct (fill_slot c l); [|tauto]. rewrite <- IH. split; discriminate.
Qed.

Lemma clear_slot_spec c l l' :
  clear_slot c l = Some l' ->
  exists u v, l = u ++ c :: v /\ l' = u ++ 0 :: v /\ ~ In c u.
Proof.
  revert l'; induction l as [|x l IH]; cbn [clear_slot]; intros l' H; [discriminate|].
  destruct (x =? c) eqn:E.
  - apply Z.eqb_eq in E. subst. inversion H; subst. exists [], l. cbn. auto.
  - destruct (clear_slot c l) as [r'|] eqn:F; [|discriminate]. inversion H; subst.
    destruct (IH _ eq_refl) as (u & v & -> & -> & Hu). exists (x :: u), v.
    split; [reflexivity|]. split; [reflexivity|]. cbn. intros [->|H1]; [rewrite Z.eqb_refl in E; discriminate|auto].
Qed.

Lemma clear_slot_none c l : clear_slot c l = None <-> ~ In c l.
Proof.
  induction l as [|x l IH]; cbn [clear_slot In]; [tauto|].
  destruct (x =? c) eqn:E.
  - apply Z.eqb_eq in E. split; [discriminate|tauto].
  - apply Z.eqb_neq in E. destruct (clear_slot c l).
    + split; [discriminate|]. intros H. exfalso. apply H. right.
      destruct (in_dec Z.eq_dec c l); [assumption|]. apply IH in n. discriminate.
    + split; [|reflexivity]. intros _ [H|H]; [congruence|]. apply IH; auto.
Qed.

(** Bits of the modifier byte *)
Lemma is_modifier_range c : is_modifier c = true <-> 0xE0 <= c <= 0xE7.
Proof. unfold is_modifier. rewrite andb_true_iff, !Z.leb_le. lia. Qed.

Lemma pow2_bit n x : 0 <= n -> Z.testbit (Z.shiftl 1 n) x = (n =? x).
Proof.
  intros Hn. rewrite Z.shiftl_mul_pow2, Z.mul_1_l by exact Hn.
  destruct (n =? x) eqn:E.
  - apply Z.eqb_eq in E. subst. apply Z.pow2_bits_true; lia.
  - apply Z.eqb_neq in E. apply Z.pow2_bits_false; lia.
Qed.

Lemma mask_bit n x : 0 <= n <= 7 -> 0 <= x <= 7 ->
  Z.testbit (255 - Z.shiftl 1 n) x = negb (n =? x).
Proof.
  intros Hn Hx.
  assert (Hn' : n = 0 \/ n = 1 \/ n = 2 \/ n = 3 \/ n = 4 \/ n = 5 \/ n = 6 \/ n = 7) by lia.
  assert (Hx' : x = 0 \/ x = 1 \/ x = 2 \/ x = 3 \/ x = 4 \/ x = 5 \/ x = 6 \/ x = 7) by lia.
  destruct Hn' as [->|[->|[->|[->|[->|[->|[->| ->]]]]]]];
  destruct Hx' as [->|[->|[->|[->|[->|[->|[->| ->]]]]]]]; reflexivity.
Qed.

Lemma lor_range a b : 0 <= a < 256 -> 0 <= b < 256 -> 0 <= Z.lor a b < 256.
Proof.
  intros Ha Hb. split; [apply Z.lor_nonneg; lia|].
  destruct (Z.eq_dec (Z.lor a b) 0) as [->|Hne]; [lia|].
  assert (0 <= Z.lor a b) by (apply Z.lor_nonneg; lia).
  apply (Z.log2_lt_pow2 _ 8); [lia|].
  rewrite Z.log2_lor by lia.
  assert (forall z, 0 <= z < 256 -> Z.log2 z < 8) as Hl.
  { intros z Hz. destruct (Z.eq_dec z 0) as [->|Hz0]; [cbn; lia|].
    apply (Z.log2_lt_pow2 _ 8); lia. }
  pose proof (Hl a Ha). pose proof (Hl b Hb). lia.
Qed.

Lemma land_range a b : 0 <= a < 256 -> 0 <= b -> 0 <= Z.land a b < 256.
Proof.
  intros Ha Hb. assert (0 <= Z.land a b) by (apply Z.land_nonneg; lia). split; [assumption|].
  destruct (Z.eq_dec (Z.land a b) 0) as [->|Hne]; [lia|].
  apply (Z.log2_lt_pow2 _ 8); [lia|].
  pose proof (Z.log2_land a b ltac:(lia) Hb).
  destruct (Z.eq_dec a 0) as [->|Ha0]; [rewrite Z.land_0_l in Hne; lia|].
  assert (Z.log2 a < 8) by (apply Z.log2_lt_pow2; lia). lia.
Qed.

Lemma shiftl1_range n : 0 <= n <= 7 -> 0 <= Z.shiftl 1 n < 256.
Proof.
  intros H. rewrite Z.shiftl_mul_pow2, Z.mul_1_l by lia.
  split; [apply Z.pow_nonneg; lia|]. change 256 with (2 ^ 8).
  apply Z.pow_lt_mono_r; lia.
Qed.

(** Well-formedness is preserved *)
Lemma nodup_fill u v c :
  NoDup (filter nz (u ++ 0 :: v)) -> ~ In c (u ++ 0 :: v) ->
  NoDup (filter nz (u ++ c :: v)).
Proof.
  rewrite !filter_app. cbn [filter]. change (nz 0) with false. cbn iota.
  intros H Hc. destruct (nz c); [|exact H].
  rewrite <- filter_app in H.
  apply NoDup_Add with (a := c) (l := filter nz u ++ filter nz v).
  - apply Add_app.
  - rewrite <- filter_app. split; [exact H|]. intros Hin. apply filter_In in Hin.
    destruct Hin as [Hin _]. apply Hc. apply in_app_or in Hin. apply in_or_app. cbn. tauto.
Qed.

Lemma nodup_clear u v c :
  NoDup (filter nz (u ++ c :: v)) -> NoDup (filter nz (u ++ 0 :: v)).
Proof.
  rewrite !filter_app. cbn [filter]. change (nz 0) with false. cbn iota.
  destruct (nz c); [|auto]. apply NoDup_remove_1.
Qed.

Lemma report_ok_init : report_ok hid_init.
Proof.
  unfold report_ok, hid_init; cbn. split; [reflexivity|]. split.
  - intros c H. assert (c = 0) by intuition. subst. split; [lia|reflexivity].
  - split; [constructor|]. lia.
Qed.

Lemma add_ok c h : 0 <= c < 256 -> report_ok h -> report_ok (addKeycode c h).
Proof.
  intros Hc (Hlen & Hin & Hnd & Hm & Hk). unfold addKeycode.
  destruct (is_modifier c) eqn:Em.
  - unfold report_ok; cbn. repeat split; try assumption; try (apply Hin; assumption); try lia.
    + apply is_modifier_range in Em. apply lor_range; [lia|]. apply shiftl1_range. lia.
    + apply is_modifier_range in Em. apply lor_range; [lia|]. apply shiftl1_range. lia.
  - destruct (existsb (Z.eqb c) (keycodes h)) eqn:Ex.
    + unfold report_ok; auto.
    + destruct (fill_slot c (keycodes h)) as [l'|] eqn:F.
      * apply fill_slot_spec in F. destruct F as (u & v & E & -> & _). cbn.
        unfold report_ok; cbn. rewrite E in *. rewrite app_length in *. cbn [length] in *.
        split; [exact Hlen|]. split.
        { intros x Hx. apply in_app_or in Hx. cbn in Hx.
          destruct Hx as [Hx|[<-|Hx]].
          - apply Hin. apply in_or_app; auto.
          - split; [lia|exact Em].
          - apply Hin. apply in_or_app; cbn; auto. }
        split; [|auto]. apply nodup_fill; [exact Hnd|].
        intros Hi. apply existsb_eqb_In in Hi. congruence.
      * unfold report_ok; auto.
Qed.

Lemma remove_ok c h : report_ok h -> report_ok (removeKeycode c h).
Proof.
  intros (Hlen & Hin & Hnd & Hm & Hk). unfold removeKeycode.
  destruct (c =? 0); [unfold report_ok; auto|].
  destruct (is_modifier c) eqn:Em.
  - assert (Hr : 0 <= Z.land (modifiers h) (255 - Z.shiftl 1 (c - 0xE0)) < 256).
    { apply is_modifier_range in Em. pose proof (shiftl1_range (c - 0xE0) ltac:(lia)).
      apply land_range; [exact Hm|lia]. }
    unfold report_ok; cbn [keycodes modifiers consumer]. auto.
  - destruct (clear_slot c (keycodes h)) as [l'|] eqn:F; [|unfold report_ok; auto].
    apply clear_slot_spec in F. destruct F as (u & v & E & -> & _). cbn.
    unfold report_ok; cbn. rewrite E in *. rewrite app_length in *. cbn [length] in *.
    split; [exact Hlen|]. split.
    { intros x Hx. apply in_app_or in Hx. cbn in Hx.
      destruct Hx as [Hx|[<-|Hx]].
      - apply Hin. apply in_or_app; auto.
      - split; [lia|reflexivity].
      - apply Hin. apply in_or_app; cbn; auto. }
    split; [|auto]. apply nodup_clear with c. exact Hnd.
Qed.

Lemma consumer_ok c h : 0 <= c < 65536 -> report_ok h -> report_ok (addConsumer c h).
Proof.
  intros Hc H. unfold addConsumer. destruct (_ =? _); [exact H|].
  destruct H as (? & ? & ? & ? & ?). unfold report_ok; cbn; auto.
Qed.

Lemma code8_range u : 0 <= code8 u < 256.
Proof. apply Z.mod_pos_bound. lia. Qed.
Lemma code16_range u : 0 <= code16 u < 65536.
Proof. apply Z.mod_pos_bound. lia. Qed.

Lemma hid_add_ok s u h : report_ok h -> report_ok (fst (hid_add s u h)).
Proof.
  intros H. unfold hid_add. destruct s; [exact H|].
  destruct (page u =? _); cbn; [apply add_ok; [apply code8_range|exact H]|].
  destruct (page u =? _); cbn; [apply consumer_ok; [apply code16_range|exact H]|exact H].
Qed.

Lemma hid_remove_ok u h : report_ok h -> report_ok (hid_remove u h).
Proof.
  intros H. unfold hid_remove.
  destruct (page u =? _); [apply remove_ok; exact H|].
  destruct (page u =? _); [apply consumer_ok; [lia|exact H]|exact H].
Qed.

(* hid_tick only touches the stale flags *)
Lemma hid_tick_data b h :
  keycodes (fst (hid_tick b h)) = keycodes h /\
  modifiers (fst (hid_tick b h)) = modifiers h /\
  consumer (fst (hid_tick b h)) = consumer h.
Proof.
  unfold hid_tick. destruct (kstale h && k_ready b); cbn;
  destruct (cstale h && c_ready b); cbn; auto.
Qed.

Lemma hid_tick_ok b h : report_ok h -> report_ok (fst (hid_tick b h)).
Proof.
  destruct (hid_tick_data b h) as (E1 & E2 & E3). unfold report_ok.
  rewrite E1, E2, E3. auto.
Qed.

Lemma hstate_ok ops : report_ok (hstate ops).
Proof.
  induction ops as [|o ops IH]; [apply report_ok_init|]. cbn [hstate].
  destruct o; cbn [apply_hop fst].
  - apply hid_add_ok; exact IH.
  - apply hid_remove_ok; exact IH.
  - apply hid_tick_ok; exact IH.
Qed.

(** The set refinement *)
Lemma existsb_app_cons c u x v :
  existsb (Z.eqb c) (u ++ x :: v) = (c =? x) || existsb (Z.eqb c) (u ++ v).
Proof. rewrite !existsb_app. cbn [existsb]. destruct (existsb (Z.eqb c) u), (c =? x); reflexivity. Qed.

Lemma pressed_add c h x :
  0 <= c < 256 -> 0 <= x < 256 ->
  pressed (addKeycode c h) x =
  pressed h x || ((x =? c) && negb (c =? 0) && (is_modifier c || has_room h)).
Proof.
  intros Hc Hx. unfold addKeycode. destruct (is_modifier c) eqn:Em.
  - pose proof (proj1 (is_modifier_range c) Em) as Hr.
    assert (Ez : (c =? 0) = false) by (apply Z.eqb_neq; lia). rewrite Ez.
    unfold pressed; cbn [modifiers keycodes consumer]. destruct (is_modifier x) eqn:Ex.
    + pose proof (proj1 (is_modifier_range x) Ex) as Hr'.
      rewrite Z.lor_spec, pow2_bit by lia.
      f_equal. cbn. rewrite !andb_true_r.
      destruct (x =? c) eqn:E.
      * apply Z.eqb_eq in E. subst. apply Z.eqb_refl.
      * apply Z.eqb_neq in E. apply Z.eqb_neq. lia.
    + assert (E : (x =? c) = false) by (apply Z.eqb_neq; intros ->; congruence).
      rewrite E. cbn. rewrite orb_false_r. reflexivity.
  - destruct (existsb (Z.eqb c) (keycodes h)) eqn:Ex.
    + destruct (x =? c) eqn:E; cbn; [|rewrite orb_false_r; reflexivity].
      apply Z.eqb_eq in E. subst. destruct (c =? 0) eqn:Ez; cbn; [rewrite orb_false_r; reflexivity|].
      unfold pressed. rewrite Em, Ez, Ex. reflexivity.
    + destruct (fill_slot c (keycodes h)) as [l'|] eqn:F.
      * assert (Hroom : has_room h = true).
        { unfold has_room. destruct (existsb (Z.eqb 0) (keycodes h)) eqn:Er; [reflexivity|].
          apply (fill_slot_none c) in Er. congruence. }
        rewrite Hroom, orb_true_r, andb_true_r.
        apply fill_slot_spec in F. destruct F as (u & v & Ek & -> & _).
        unfold pressed; cbn [modifiers keycodes consumer]. rewrite Ek.
        destruct (is_modifier x) eqn:Exm.
        { assert (E : (x =? c) = false) by (apply Z.eqb_neq; intros ->; congruence).
          rewrite E. cbn. rewrite orb_false_r. reflexivity. }
        rewrite !existsb_app_cons.
        destruct (x =? 0) eqn:Ex0; cbn.
        { apply Z.eqb_eq in Ex0. subst x. rewrite (Z.eqb_sym 0 c). destruct (c =? 0); reflexivity. }
        destruct (x =? c) eqn:Exc; cbn.
        { apply Z.eqb_eq in Exc. subst x. rewrite Ex0. cbn. rewrite orb_true_r. reflexivity. }
        rewrite orb_false_r. reflexivity.
      * apply fill_slot_none in F. unfold has_room. rewrite F. cbn.
        rewrite andb_false_r, orb_false_r. reflexivity.
Qed.

Lemma filter_nz_count u v c :
  c <> 0 -> NoDup (filter nz (u ++ c :: v)) -> existsb (Z.eqb c) (u ++ v) = false.
Proof.
  intros Hc H. rewrite filter_app in H. cbn [filter] in H.
  assert (Hn : nz c = true) by (unfold nz; apply negb_true_iff, Z.eqb_neq; exact Hc).
  rewrite Hn in H. apply NoDup_remove_2 in H. rewrite <- filter_app in H.
  destruct (existsb (Z.eqb c) (u ++ v)) eqn:E; [|reflexivity].
  exfalso. apply H. apply filter_In. split; [apply existsb_eqb_In; exact E|exact Hn].
Qed.

Lemma pressed_remove c h x :
  report_ok h -> 0 <= c < 256 -> 0 <= x < 256 ->
  pressed (removeKeycode c h) x = pressed h x && negb (x =? c).
Proof.
  intros (Hlen & Hin & Hnd & Hm & Hk) Hc Hx. unfold removeKeycode.
  destruct (c =? 0) eqn:Ez.
  - apply Z.eqb_eq in Ez. subst c. destruct (x =? 0) eqn:E; cbn.
    + apply Z.eqb_eq in E. subst x. reflexivity.
    + rewrite andb_true_r. reflexivity.
  - destruct (is_modifier c) eqn:Em.
    + pose proof (proj1 (is_modifier_range c) Em) as Hr.
      unfold pressed; cbn [modifiers keycodes consumer]. destruct (is_modifier x) eqn:Ex.
      * pose proof (proj1 (is_modifier_range x) Ex) as Hr'.
        rewrite Z.land_spec, mask_bit by lia. f_equal. f_equal.
        destruct (x =? c) eqn:E.
        { apply Z.eqb_eq in E. subst. apply Z.eqb_refl. }
        { apply Z.eqb_neq in E. apply Z.eqb_neq. lia. }
      * assert (E : (x =? c) = false) by (apply Z.eqb_neq; intros ->; congruence).
        rewrite E. cbn. rewrite andb_true_r. reflexivity.
    + apply Z.eqb_neq in Ez.
      destruct (clear_slot c (keycodes h)) as [l'|] eqn:F.
      * apply clear_slot_spec in F. destruct F as (u & v & Ek & -> & _).
        unfold pressed; cbn [modifiers keycodes consumer]. rewrite Ek in *.
        pose proof (filter_nz_count u v c Ez Hnd) as Hn.
        destruct (is_modifier x) eqn:Exm.
        { assert (E : (x =? c) = false) by (apply Z.eqb_neq; intros ->; congruence).
          rewrite E. cbn. rewrite andb_true_r. reflexivity. }
        rewrite !existsb_app_cons.
        destruct (x =? 0) eqn:Ex0; cbn; [reflexivity|].
        destruct (x =? c) eqn:Exc; cbn.
        { apply Z.eqb_eq in Exc. subst x. rewrite Hn. reflexivity. }
        rewrite andb_true_r. reflexivity.
      * apply clear_slot_none in F.
        destruct (x =? c) eqn:Exc; cbn; [|rewrite andb_true_r; reflexivity].
        apply Z.eqb_eq in Exc. subst x. rewrite andb_false_r.
        unfold pressed. rewrite Em. destruct (existsb (Z.eqb c) (keycodes h)) eqn:E.
        { apply existsb_eqb_In in E. contradiction. }
        apply andb_false_r.
Qed.

Lemma pressed_consumer c h x : pressed (addConsumer c h) x = pressed h x.
Proof. unfold addConsumer. destruct (_ =? _); reflexivity. Qed.

Lemma consumer_addKeycode c h : consumer (addKeycode c h) = consumer h.
Proof.
  unfold addKeycode. destruct (is_modifier c); [reflexivity|].
  destruct (existsb _ _); [reflexivity|]. destruct (fill_slot _ _); reflexivity.
Qed.

Lemma consumer_removeKeycode c h : consumer (removeKeycode c h) = consumer h.
Proof.
  unfold removeKeycode. destruct (c =? 0); [reflexivity|].
  destruct (is_modifier c); [reflexivity|]. destruct (clear_slot _ _); reflexivity.
Qed.

Lemma consumer_addConsumer c h : consumer (addConsumer c h) = c.
Proof. unfold addConsumer. destruct (_ =? _) eqn:E; [apply Z.eqb_eq in E; exact E|reflexivity]. Qed.

(* An empty report is one in which nothing is pressed *)
Lemma report_empty_iff h :
  report_ok h ->
  (report_empty h <-> (forall c, 0 < c < 256 -> pressed h c = false) /\ consumer h = 0).
Proof.
  intros (Hlen & Hin & Hnd & Hm & Hk). unfold report_empty. split.
  - intros (Ek & Em & Ec). split; [|exact Ec]. intros c Hc. unfold pressed. rewrite Ek, Em.
    destruct (is_modifier c); [apply Z.bits_0|].
    cbn. assert ((c =? 0) = false) as -> by (apply Z.eqb_neq; lia). reflexivity.
  - intros [Hp Hc]. split; [|split; [|exact Hc]].
    + assert (Hz : forall c, In c (keycodes h) -> c = 0).
      { intros c Hi. destruct (Z.eq_dec c 0) as [|Hne]; [assumption|exfalso].
        destruct (Hin c Hi) as [Hr Hmod]. specialize (Hp c ltac:(lia)). unfold pressed in Hp.
        rewrite Hmod in Hp. apply andb_false_iff in Hp. destruct Hp as [Hp|Hp].
        - apply negb_false_iff, Z.eqb_eq in Hp. contradiction.
        - apply existsb_eqb_In in Hi. congruence. }
      destruct (keycodes h) as [|a [|b [|c [|d [|e [|f [|g r]]]]]]]; try discriminate Hlen.
      rewrite (Hz a), (Hz b), (Hz c), (Hz d), (Hz e), (Hz f) by (cbn; tauto). reflexivity.
    + apply Z.bits_inj'. intros n Hn. rewrite Z.bits_0.
      destruct (Z_lt_ge_dec n 8) as [Hlt|Hge].
      * specialize (Hp (n + 0xE0) ltac:(lia)). unfold pressed in Hp.
        assert (is_modifier (n + 0xE0) = true) as Em by (apply is_modifier_range; lia).
        rewrite Em in Hp. replace (n + 0xE0 - 0xE0) with n in Hp by lia. exact Hp.
      * destruct (Z.eq_dec (modifiers h) 0) as [->|Hne]; [apply Z.bits_0|].
        apply Z.bits_above_log2; [lia|]. apply Z.lt_le_trans with 8; [|lia].
        apply Z.log2_lt_pow2; lia.
Qed.
