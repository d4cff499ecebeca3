From Coq Require Import List ZArith Bool Lia Sorted.
From Verif Require Import FwModel FwSpec FwDebounce FwHid.
Import ListNotations.
Open Scope Z_scope.

(** ** The scan treats every switch independently *)

Lemma scan_keys T k0 deb row :
  (forall e, In e (snd (scan T k0 deb row)) -> (k0 <= fst e < k0 + length deb)%nat) /\
  StronglySorted (fun a b => (fst a < fst b)%nat) (snd (scan T k0 deb row)).
Proof.
  revert k0 row; induction deb as [|st deb IH]; intros k0 [|sg row]; cbn [scan snd];
    try (split; [intros e []|constructor]).
  destruct (debounce T st sg) as [st' ev].
  destruct (IH (S k0) row) as [IHr IHs]. destruct (scan T (S k0) deb row) as [r evs].
  cbn [snd length] in *. destruct ev as [b|].
  - split.
    + intros e [<-|He]; cbn; [lia|]. apply IHr in He. lia.
    + constructor; [exact IHs|]. apply Forall_forall. intros e He. apply IHr in He. cbn. lia.
  - split; [|exact IHs]. intros e He. apply IHr in He. lia.
Qed.

Lemma scan_length T k0 deb row : length (fst (scan T k0 deb row)) = length deb.
Proof.
  revert k0 row; induction deb as [|st deb IH]; intros k0 [|sg row]; cbn [scan fst]; try reflexivity.
  destruct (debounce T st sg). specialize (IH (S k0) row).
  destruct (scan T (S k0) deb row). cbn in *. lia.
Qed.

Lemma scan_one T k0 deb row k :
  length row = length deb -> (k < length deb)%nat ->
  nth k (fst (scan T k0 deb row)) 0 = fst (debounce T (nth k deb 0) (nth k row true)) /\
  filter (fun e => Nat.eqb (fst e) (k0 + k)) (snd (scan T k0 deb row)) =
  map (fun b => ((k0 + k)%nat, b)) (option_list (snd (debounce T (nth k deb 0) (nth k row true)))).
Proof.
  revert k0 row k; induction deb as [|st deb IH]; intros k0 [|sg row] k Hl Hk;
    cbn [length] in *; try lia.
  cbn [scan]. destruct (debounce T st sg) as [st' ev] eqn:Ed.
  pose proof (scan_keys T (S k0) deb row) as [Hkeys _].
  destruct k as [|k].
  - destruct (scan T (S k0) deb row) as [r evs] eqn:Es. cbn [fst snd nth].
    rewrite Ed. cbn [fst snd]. split; [reflexivity|].
    assert (Hf : filter (fun e => Nat.eqb (fst e) (k0 + 0)) evs = []).
    { cbn [snd] in Hkeys. clear -Hkeys. induction evs as [|e evs IHe]; [reflexivity|].
      cbn [filter]. assert (Nat.eqb (fst e) (k0 + 0) = false) as ->.
      { apply Nat.eqb_neq. specialize (Hkeys e (or_introl eq_refl)). lia. }
      apply IHe. intros x Hx. apply Hkeys. right; exact Hx. }
    destruct ev as [b|]; cbn [filter fst option_list map].
    + assert (Nat.eqb k0 (k0 + 0) = true) as -> by (apply Nat.eqb_eq; lia).
      rewrite Hf. f_equal. f_equal. lia.
    + exact Hf.
  - specialize (IH (S k0) row k ltac:(lia) ltac:(lia)).
    destruct (scan T (S k0) deb row) as [r evs] eqn:Es. cbn [fst snd nth] in *.
    replace (k0 + S k)%nat with (S k0 + k)%nat by lia.
    destruct IH as [IH1 IH2]. split; [exact IH1|].
    destruct ev as [b|]; [|exact IH2]. cbn [filter fst].
    assert (Nat.eqb k0 (S k0 + k) = false) as -> by (apply Nat.eqb_neq; lia). exact IH2.
Qed.

Lemma scan_independent T deb rows k :
  (forall row, In row rows -> length row = length deb) -> (k < length deb)%nat ->
  map (filter (fun e => Nat.eqb (fst e) k)) (snd (scan_run T deb rows)) =
  map (fun o => map (fun b => (k, b)) (option_list o))
      (snd (deb_run T (nth k deb 0) (map (fun row => nth k row true) rows))).
Proof.
  revert deb; induction rows as [|row rows IH]; intros deb Hl Hk; [reflexivity|].
  cbn [scan_run deb_run map].
  pose proof (scan_one T 0 deb row k (Hl row (or_introl eq_refl)) Hk) as [H1 H2].
  cbn [Nat.add] in H2.
  pose proof (scan_length T 0 deb row) as Hlen.
  destruct (scan T 0 deb row) as [deb1 evs]. cbn [fst snd] in *.
  specialize (IH deb1).
  destruct (debounce T (nth k deb 0) (nth k row true)) as [st1 o]. cbn [fst snd] in *.
  rewrite H1 in IH.
  destruct (scan_run T deb1 rows) as [deb2 evss]. destruct (deb_run T st1 _) as [st2 os].
  cbn [snd map] in *. rewrite H2. f_equal. apply IH; [|lia].
  intros row' Hr. rewrite Hlen. apply Hl. right; exact Hr.
Qed.

(** ** Fn layer and boot taps refine the history specification *)

Lemma fn_test L m k : ((L (layer m) k =? cFN) || (L (negb (layer m)) k =? cFN)) = is_fn L k.
Proof. unfold is_fn. destruct (layer m); cbn [negb]; [apply orb_comm|reflexivity]. Qed.

Definition fn_down (L : layers_t) (hist : list kev) : bool :=
  match filter (fun e => is_fn L (ek e)) hist with
  | [] => false
  | e :: _ => negb (es e)
  end.

Lemma alternates_last e l x :
  alternates e (l ++ [x]) -> alternates e l /\ x = (if Nat.even (length l) then e else negb e).
Proof.
  revert e; induction l as [|y l IH]; intros e H; cbn [app alternates length] in *.
  - cbn. tauto.
  - destruct H as [-> H]. apply IH in H. destruct H as [H1 H2]. split; [auto|].
    rewrite H2. change (Nat.even (S (length l))) with (Nat.even (1 + length l)).
    rewrite Nat.even_add. cbn [Nat.even]. destruct (Nat.even (length l)); cbn; rewrite ?negb_involutive; reflexivity.
Qed.

Lemma fn_alternates_cons L e hist :
  fn_alternates L (e :: hist) ->
  fn_alternates L hist /\ (is_fn L (ek e) = true -> es e = fn_down L hist).
Proof.
  unfold fn_alternates, fn_down. cbn [filter]. destruct (is_fn L (ek e)) eqn:E.
  - cbn [map rev]. intros H. apply alternates_last in H. destruct H as [H1 H2].
    split; [exact H1|]. intros _. rewrite H2, rev_length, map_length.
    clear H2. set (l := filter _ hist) in *.
    destruct l as [|x l]; [reflexivity|].
    cbn [map rev] in H1. apply alternates_last in H1. destruct H1 as [_ Hx].
    rewrite Hx, rev_length, map_length. cbn [length].
    change (Nat.even (S (length l))) with (Nat.even (1 + length l)).
    rewrite Nat.even_add. cbn [Nat.even]. destruct (Nat.even (length l)); reflexivity.
  - intros H. split; [exact H|discriminate].
Qed.

(* the concrete counter is the history count modulo the reset *)
Definition taps_rel (n : nat) (down : bool) (c : Z) : Prop :=
  if down then c = Z.of_nat (S ((n + 2) mod 3)) \/ (c = 0 /\ n = 0%nat)
  else c = Z.of_nat (n mod 3).

Lemma mod3_cases n : (n mod 3 = 0 \/ n mod 3 = 1 \/ n mod 3 = 2)%nat.
Proof. pose proof (Nat.mod_upper_bound n 3 ltac:(lia)). lia. Qed.

Lemma mod3_S n : (S n mod 3 = if Nat.eqb (n mod 3) 2 then 0 else S (n mod 3))%nat.
Proof.
  destruct (mod3_cases n) as [H|[H|H]]; rewrite H; cbn [Nat.eqb];
  pose proof (Nat.div_mod n 3 ltac:(lia)) as Hd; rewrite H in Hd;
  symmetry; [apply Nat.mod_unique with (n/3)%nat|apply Nat.mod_unique with (n/3)%nat|apply Nat.mod_unique with (S (n/3))%nat]; lia.
Qed.

Lemma mod3_plus2 n : ((n + 3) mod 3 = n mod 3)%nat.
Proof. replace (n + 3)%nat with (n + 1 * 3)%nat by lia. apply Nat.mod_add. lia. Qed.

(* While Fn is held the Fn layer is active; no alternation needed. *)
Lemma fn_held_layer L hist : fn_down L hist = true -> layer (fst (kstate L hist)) = true.
Proof.
  induction hist as [|e hist IH]; [discriminate|].
  unfold fn_down. cbn [filter kstate]. unfold apply_kev.
  destruct (kstate L hist) as [m h]. cbn [fst] in IH. cbn [mreport]. rewrite fn_test.
  destruct (is_fn L (ek e)) eqn:Efn.
  - intros H. destruct (es e); [discriminate|]. reflexivity.
  - fold (fn_down L hist). intros H. specialize (IH H).
    destruct (es e); [exact IH|]. destruct (_ =? kBOOT); [exact IH|].
    destruct (hid_add _ _ h). exact IH.
Qed.

Lemma layer_refines L hist :
  fn_alternates L hist ->
  layer (fst (kstate L hist)) = layer_spec L hist /\
  taps_rel (fn_taps_spec L hist) (fn_down L hist) (fnTaps (fst (kstate L hist))).
Proof.
  induction hist as [|e hist IH]; intros Ha.
  - cbn. split; reflexivity.
  - apply fn_alternates_cons in Ha. destruct Ha as [Ha Hfn].
    specialize (IH Ha). destruct IH as [IHl IHt].
    pose proof (fn_held_layer L hist) as Hheld.
    cbn [kstate layer_spec fn_taps_spec]. unfold apply_kev.
    destruct (kstate L hist) as [m h]. cbn [fst] in IHl, IHt, Hheld. cbn [mreport].
    rewrite fn_test. unfold fn_down. cbn [filter].
    destruct (is_fn L (ek e)) eqn:Efn.
    + specialize (Hfn eq_refl). destruct (es e) eqn:Es.
      * (* Fn released; it was down *)
        symmetry in Hfn. rewrite Hfn in IHt. specialize (Hheld Hfn). cbn [fst layer fnTaps negb].
        unfold taps_rel in *. unfold FN_KEY_TAPS.
        destruct IHt as [Hc|[Hc Hn]].
        { pose proof (mod3_S (fn_taps_spec L hist + 2)) as H1.
          replace (S (fn_taps_spec L hist + 2)) with (fn_taps_spec L hist + 3)%nat in H1 by lia.
          rewrite mod3_plus2 in H1.
          destruct (mod3_cases (fn_taps_spec L hist + 2)) as [H|[H|H]]; rewrite H in *;
            cbn [Nat.eqb] in H1; rewrite H1, Hc, Hheld; cbn; auto. }
        { rewrite Hc, Hn. cbn. auto. }
      * (* Fn pressed; it was up *)
        rewrite <- Hfn in IHt. cbn [fst layer fnTaps negb]. split; [reflexivity|].
        unfold taps_rel in *. left.
        replace (S (fn_taps_spec L hist) + 2)%nat with (fn_taps_spec L hist + 3)%nat by lia.
        rewrite mod3_plus2, IHt. lia.
    + clear Hfn. rewrite IHl. fold (fn_down L hist).
      destruct (es e) eqn:Es.
      * cbn [fst]. split; [exact IHl|exact IHt].
      * destruct (L (layer_spec L hist) (ek e) =? kBOOT) eqn:Eb.
        { cbn [fst layer fnTaps]. split; [reflexivity|exact IHt]. }
        { destruct (hid_add (esusp e) _ h) as [h' w]. cbn [fst layer fnTaps].
          split; [reflexivity|]. unfold taps_rel. destruct (fn_down L hist); [right; auto|reflexivity]. }
Qed.

Lemma boot_refines L hist :
  fn_alternates L hist ->
  bootTaps (fst (kstate L hist)) = Z.of_nat (boot_taps_spec L hist).
Proof.
  induction hist as [|e hist IH]; intros Ha; [reflexivity|].
  apply fn_alternates_cons in Ha. destruct Ha as [Ha _]. specialize (IH Ha).
  destruct (layer_refines L hist Ha) as [Hl _].
  cbn [kstate boot_taps_spec]. unfold apply_kev.
  destruct (kstate L hist) as [m h]. cbn [fst] in *. cbn [mreport]. rewrite fn_test.
  destruct (is_fn L (ek e)) eqn:Efn.
  - rewrite orb_true_r. destruct (es e); exact IH.
  - rewrite orb_false_r, Hl. destruct (es e); [exact IH|].
    destruct (_ =? kBOOT).
    + cbn [fst bootTaps]. lia.
    + destruct (hid_add _ _ h). reflexivity.
Qed.

Lemma boot_exact L hist e :
  fn_alternates L (e :: hist) ->
  (In EffBoot (snd (apply_kev L e (kstate L hist))) <->
   es e = false /\ is_fn L (ek e) = false /\
   L (layer_spec L hist) (ek e) = kBOOT /\ (3 <= boot_taps_spec L (e :: hist))%nat).
Proof.
  intros Ha. apply fn_alternates_cons in Ha. destruct Ha as [Ha _].
  destruct (layer_refines L hist Ha) as [Hl _]. pose proof (boot_refines L hist Ha) as Hb.
  cbn [boot_taps_spec]. unfold apply_kev.
  destruct (kstate L hist) as [m h]. cbn [fst] in *. cbn [mreport]. rewrite fn_test.
  destruct (is_fn L (ek e)) eqn:Efn.
  - destruct (es e); cbn; intuition discriminate.
  - rewrite orb_false_r, Hl. destruct (es e); [cbn; intuition discriminate|].
    destruct (L (layer_spec L hist) (ek e) =? kBOOT) eqn:Eb.
    + apply Z.eqb_eq in Eb. rewrite Hb. unfold BOOT_KEY_TAPS. cbn [snd].
      destruct (3 <=? Z.of_nat (boot_taps_spec L hist) + 1) eqn:E.
      * apply Z.leb_le in E. cbn. split; [intros _|auto]. repeat split; auto; lia.
      * apply Z.leb_gt in E. cbn. split; [intros []|]. intros (_ & _ & _ & H). lia.
    + apply Z.eqb_neq in Eb. destruct (hid_add _ _ h) as [h' w]. destruct w; cbn; intuition (try discriminate).
Qed.

(* In the default table the Fn key is key 26 only, kBOOT only on the Fn layer at key 40. *)
Lemma default_fn_key k : (k < KEYS)%nat -> is_fn default_layers k = Nat.eqb k 26.
Proof.
  intros Hk. assert (H : forallb (fun k => Bool.eqb (is_fn default_layers k) (Nat.eqb k 26)) (seq 0 KEYS) = true)
    by (vm_compute; reflexivity).
  rewrite forallb_forall in H. specialize (H k). rewrite in_seq in H.
  apply eqb_prop. apply H. lia.
Qed.

Lemma default_boot_key b k : (k < KEYS)%nat -> (default_layers b k =? kBOOT) = b && Nat.eqb k 40.
Proof.
  intros Hk. assert (H : forallb (fun k => forallb (fun b => Bool.eqb (default_layers b k =? kBOOT) (b && Nat.eqb k 40)) [true;false]) (seq 0 KEYS) = true)
    by (vm_compute; reflexivity).
  rewrite forallb_forall in H. specialize (H k). rewrite in_seq in H. specialize (H ltac:(lia)).
  rewrite forallb_forall in H. apply eqb_prop. apply H. destruct b; cbn; auto.
Qed.

(** ** Where codes in the report come from *)

Definition src_inv (L : layers_t) (ops : list op) (s : ost) : Prop :=
  report_ok (o_hid s) /\
  (forall c, 0 < c < 256 -> pressed (o_hid s) c = true ->
     (exists k, held ops k = true /\ key_has L k c) \/ enc_has (o_cur s) c) /\
  (consumer (o_hid s) <> 0 ->
     (exists k, held ops k = true /\ key_has_consumer L k (consumer (o_hid s))) \/
     enc_has_consumer (o_cur s) (consumer (o_hid s))).

Lemma pages_differ : PAGE_KEYBOARD =? PAGE_CONSUMER = false.
Proof. reflexivity. Qed.

Lemma pressed_hid_add s u h c :
  report_ok h -> 0 < c < 256 -> pressed (fst (hid_add s u h)) c = true ->
  pressed h c = true \/ (page u = PAGE_KEYBOARD /\ code8 u = c).
Proof.
  intros Hok Hc. unfold hid_add. destruct s; [auto|].
  destruct (page u =? PAGE_KEYBOARD) eqn:Ep.
  - cbn [fst]. rewrite pressed_add by (try apply code8_range; lia).
    rewrite orb_true_iff. intros [H|H]; [auto|]. right.
    rewrite !andb_true_iff in H. destruct H as [[H _] _].
    apply Z.eqb_eq in H, Ep. auto.
  - destruct (page u =? PAGE_CONSUMER); cbn [fst]; [rewrite pressed_consumer|]; auto.
Qed.

Lemma consumer_hid_add s u h :
  consumer (fst (hid_add s u h)) = consumer h \/
  (page u = PAGE_CONSUMER /\ code16 u = consumer (fst (hid_add s u h))).
Proof.
  unfold hid_add. destruct s; [auto|].
  destruct (page u =? PAGE_KEYBOARD) eqn:Ep; cbn [fst]; [rewrite consumer_addKeycode; auto|].
  destruct (page u =? PAGE_CONSUMER) eqn:Ec; cbn [fst]; [|auto].
  right. rewrite consumer_addConsumer. apply Z.eqb_eq in Ec. auto.
Qed.

Lemma pressed_hid_remove u h c :
  report_ok h -> 0 < c < 256 ->
  pressed (hid_remove u h) c =
  pressed h c && negb ((page u =? PAGE_KEYBOARD) && (c =? code8 u)).
Proof.
  intros Hok Hc. unfold hid_remove. destruct (page u =? PAGE_KEYBOARD) eqn:Ep.
  - rewrite pressed_remove by (try apply code8_range; auto; lia). reflexivity.
  - cbn. rewrite andb_true_r.
    destruct (page u =? PAGE_CONSUMER); [rewrite pressed_consumer|]; reflexivity.
Qed.

Lemma consumer_hid_remove u h :
  consumer (hid_remove u h) = if page u =? PAGE_CONSUMER then 0 else consumer h.
Proof.
  unfold hid_remove. destruct (page u =? PAGE_KEYBOARD) eqn:Ep.
  - rewrite consumer_removeKeycode. apply Z.eqb_eq in Ep. rewrite Ep. reflexivity.
  - destruct (page u =? PAGE_CONSUMER); [apply consumer_addConsumer|reflexivity].
Qed.

Lemma held_key e ops k :
  held (OpKey e :: ops) k = if Nat.eqb (ek e) k then negb (es e) else held ops k.
Proof. reflexivity. Qed.


Lemma src_init L : src_inv L [] (ostate L []).
Proof.
  split; [apply report_ok_init|]. split.
  - intros c Hc H. cbn in H. unfold pressed in H. destruct (is_modifier c).
    + rewrite Z.bits_0 in H. discriminate.
    + cbn in H. destruct (c =? 0); discriminate.
  - intros H. cbn in H. lia.
Qed.

Lemma both_codes (L : layers_t) m k l :
  L l k = L (layer m) k \/ L l k = L (negb (layer m)) k.
Proof. destruct l, (layer m); cbn; auto. Qed.

Lemma src_step L ops o : src_inv L ops (ostate L ops) -> src_inv L (o :: ops) (ostate L (o :: ops)).
Proof.
  cbn [ostate]. intros (Hok & Hp & Hc). destruct (ostate L ops) as [m h cur tmo]. cbn [o_hid o_cur o_mat o_tmo] in *.
  destruct o as [e|u susp|b]; cbn [apply_op o_mat o_hid o_cur o_tmo].
  - unfold apply_kev. cbn [mreport]. rewrite fn_test. destruct (is_fn L (ek e)) eqn:Efn.
    + (* an Fn key never is a witness *)
      assert (Hkeep : forall k, is_fn L k = false -> held (OpKey e :: ops) k = held ops k).
      { intros k Hk. rewrite held_key. destruct (Nat.eqb (ek e) k) eqn:E; [|reflexivity].
        apply Nat.eqb_eq in E. subst. congruence. }
      assert (Hgoal : src_inv L (OpKey e :: ops) (mkOst m h cur tmo)).
      { split; [exact Hok|]. cbn [o_hid o_cur]. split.
        - intros c Hcr Hpr. destruct (Hp c Hcr Hpr) as [(k & Hk & Hh)|He]; [left|right; exact He].
          exists k. split; [|exact Hh]. rewrite Hkeep by apply Hh. exact Hk.
        - intros Hn. destruct (Hc Hn) as [(k & Hk & Hh)|He]; [left|right; exact He].
          exists k. split; [|exact Hh]. rewrite Hkeep by apply Hh. exact Hk. }
      destruct (es e); exact Hgoal.
    + destruct (es e) eqn:Es.
      * (* released *)
        cbn [fst]. set (a := L (layer m) (ek e)). set (i := L (negb (layer m)) (ek e)).
        assert (Hok1 : report_ok (hid_remove a h)) by (apply hid_remove_ok; exact Hok).
        split; [cbn [o_hid]; apply hid_remove_ok; exact Hok1|]. cbn [o_hid o_cur]. split.
        -- intros c Hcr Hpr. rewrite pressed_hid_remove, pressed_hid_remove in Hpr by assumption.
           rewrite !andb_true_iff, !negb_true_iff in Hpr. destruct Hpr as [[Hpr H1] H2].
           destruct (Hp c Hcr Hpr) as [(k & Hk & Hf & l & Hpg & Hcd)|He]; [left|right; exact He].
           exists k. split; [|split; [exact Hf|exists l; auto]].
           rewrite held_key. destruct (Nat.eqb (ek e) k) eqn:E; [|exact Hk]. exfalso.
           apply Nat.eqb_eq in E. subst k.
           destruct (both_codes L m (ek e) l) as [Ex|Ex]; rewrite Ex in *.
           { fold a in Hpg, Hcd. rewrite Hpg, Hcd, !Z.eqb_refl in H1. discriminate. }
           { fold i in Hpg, Hcd. rewrite Hpg, Hcd, !Z.eqb_refl in H2. discriminate. }
        -- intros Hn. rewrite !consumer_hid_remove in Hn |- *.
           destruct (page i =? PAGE_CONSUMER) eqn:Ei; [lia|].
           destruct (page a =? PAGE_CONSUMER) eqn:Ea; [lia|].
           destruct (Hc Hn) as [(k & Hk & Hf & l & Hpg & Hcd)|He]; [left|right; exact He].
           exists k. split; [|split; [exact Hf|exists l; auto]].
           rewrite held_key. destruct (Nat.eqb (ek e) k) eqn:E; [|exact Hk]. exfalso.
           apply Nat.eqb_eq in E. subst k. apply Z.eqb_neq in Ea, Ei.
           destruct (both_codes L m (ek e) l) as [Ex|Ex]; rewrite Ex in *; contradiction.
      * (* pressed *)
        assert (Hheld : forall k, held ops k = true -> held (OpKey e :: ops) k = true).
        { intros k Hk. rewrite held_key, Es. destruct (Nat.eqb (ek e) k); [reflexivity|exact Hk]. }
        destruct (L (layer m) (ek e) =? kBOOT) eqn:Eb.
        { cbn [fst]. split; [exact Hok|]. cbn [o_hid o_cur]. split.
          - intros c Hcr Hpr. destruct (Hp c Hcr Hpr) as [(k & Hk & Hh)|He]; [left|right; exact He].
            exists k. auto.
          - intros Hn. destruct (Hc Hn) as [(k & Hk & Hh)|He]; [left|right; exact He].
            exists k. auto. }
        pose proof (hid_add_ok (esusp e) (L (layer m) (ek e)) h Hok) as Hok1.
        pose proof (pressed_hid_add (esusp e) (L (layer m) (ek e)) h) as Hpa.
        pose proof (consumer_hid_add (esusp e) (L (layer m) (ek e)) h) as Hca.
        destruct (hid_add (esusp e) (L (layer m) (ek e)) h) as [h' w]. cbn [fst] in *.
        split; [exact Hok1|]. cbn [o_hid o_cur]. split.
        -- intros c Hcr Hpr. destruct (Hpa c Hok Hcr Hpr) as [Hold|[Hpg Hcd]].
           { destruct (Hp c Hcr Hold) as [(k & Hk & Hh)|He]; [left|right; exact He].
             exists k. auto. }
           { left. exists (ek e). split; [rewrite held_key, Es, Nat.eqb_refl; reflexivity|].
             split; [exact Efn|]. exists (layer m). auto. }
        -- intros Hn. destruct Hca as [Hold|[Hpg Hcd]].
           { rewrite Hold in Hn |- *. destruct (Hc Hn) as [(k & Hk & Hh)|He]; [left|right; exact He].
             exists k. auto. }
           { left. exists (ek e). split; [rewrite held_key, Es, Nat.eqb_refl; reflexivity|].
             split; [exact Efn|]. exists (layer m). auto. }
  - unfold ereport. destruct (negb (tmo =? 0)) eqn:Et.
    { cbn [fst]. split; [exact Hok|]. cbn [o_hid o_cur]. auto. }
    (* step 1: remove the current usage *)
    set (s1 := if negb (cur =? kNONE) then (kNONE, hid_remove cur h) else (cur, h)).
    assert (H1 : report_ok (snd s1) /\
      (forall c, 0 < c < 256 -> pressed (snd s1) c = true -> exists k, held ops k = true /\ key_has L k c) /\
      (consumer (snd s1) <> 0 -> exists k, held ops k = true /\ key_has_consumer L k (consumer (snd s1))) /\
      fst s1 = kNONE).
    { subst s1. destruct (cur =? kNONE) eqn:Ec; cbn [negb fst snd].
      - apply Z.eqb_eq in Ec. split; [exact Hok|]. split; [|split; [|exact Ec]].
        + intros c Hcr Hpr. destruct (Hp c Hcr Hpr) as [H|[He _]]; [exact H|contradiction].
        + intros Hn. destruct (Hc Hn) as [H|[He _]]; [exact H|contradiction].
      - apply Z.eqb_neq in Ec. split; [apply hid_remove_ok; exact Hok|]. split; [|split; [|reflexivity]].
        + intros c Hcr Hpr. rewrite pressed_hid_remove in Hpr by assumption.
          rewrite andb_true_iff, negb_true_iff in Hpr. destruct Hpr as [Hpr Hne].
          destruct (Hp c Hcr Hpr) as [H|(_ & Hpg & Hcd)]; [exact H|].
          rewrite Hpg, Hcd, !Z.eqb_refl in Hne. discriminate.
        + intros Hn. rewrite consumer_hid_remove in Hn |- *.
          destruct (page cur =? PAGE_CONSUMER) eqn:Epg; [lia|].
          destruct (Hc Hn) as [H|(_ & Hpg & _)]; [exact H|].
          apply Z.eqb_neq in Epg. contradiction. }
    destruct s1 as [cur1 h1]. cbn [fst snd] in H1. destruct H1 as (Hok1 & Hp1 & Hc1 & ->).
    destruct (negb (u =? kNONE)) eqn:Eu.
    + apply negb_true_iff, Z.eqb_neq in Eu.
      pose proof (hid_add_ok susp u h1 Hok1) as Hok2.
      pose proof (pressed_hid_add susp u h1) as Hpa.
      pose proof (consumer_hid_add susp u h1) as Hca.
      destruct (hid_add susp u h1) as [h2 w]. cbn [fst] in *.
      split; [exact Hok2|]. cbn [o_hid o_cur]. split.
      * intros c Hcr Hpr. destruct (Hpa c Hok1 Hcr Hpr) as [Hold|[Hpg Hcd]].
        { left. apply Hp1; assumption. }
        { right. split; auto. }
      * intros Hn. destruct Hca as [Hold|[Hpg Hcd]].
        { rewrite Hold in Hn |- *. left. apply Hc1; assumption. }
        { right. split; auto. }
    + cbn [fst]. split; [exact Hok1|]. cbn [o_hid o_cur]. split.
      * intros c Hcr Hpr. left. apply Hp1; assumption.
      * intros Hn. left. apply Hc1; assumption.
  - destruct (hid_tick_data b h) as (E1 & E2 & E3).
    split; [apply hid_tick_ok; exact Hok|]. cbn [o_hid o_cur].
    assert (Epr : forall c, pressed (fst (hid_tick b h)) c = pressed h c)
      by (intros c; unfold pressed; rewrite E1, E2; reflexivity).
    split.
    + intros c Hcr Hpr. rewrite Epr in Hpr. apply Hp; assumption.
    + rewrite E3. exact Hc.
Qed.

Lemma src_all L ops : src_inv L ops (ostate L ops).
Proof. induction ops as [|o ops IH]; [apply src_init|apply src_step; exact IH]. Qed.

Lemma no_stuck L ops :
  (forall k, held ops k = false) -> o_cur (ostate L ops) = kNONE ->
  report_empty (o_hid (ostate L ops)).
Proof.
  intros Hk Hcur. destruct (src_all L ops) as (Hok & Hp & Hc).
  apply report_empty_iff; [exact Hok|]. split.
  - intros c Hcr. destruct (pressed _ c) eqn:E; [exfalso|reflexivity].
    destruct (Hp c Hcr E) as [(k & H & _)|[H _]]; [rewrite Hk in H; discriminate|contradiction].
  - destruct (Z.eq_dec (consumer (o_hid (ostate L ops))) 0) as [E|E]; [exact E|exfalso].
    destruct (Hc E) as [(k & H & _)|[H _]]; [rewrite Hk in H; discriminate|contradiction].
Qed.

(* counters stay tiny, so the uint arithmetic of matrix.c never wraps *)
Lemma counters_small L hist :
  fn_alternates L hist -> 0 <= fnTaps (fst (kstate L hist)) <= 3.
Proof.
  intros Ha. destruct (layer_refines L hist Ha) as [_ Ht]. unfold taps_rel in Ht.
  destruct (fn_down L hist).
  - destruct Ht as [->|[-> _]]; [|lia].
    pose proof (Nat.mod_upper_bound (fn_taps_spec L hist + 2) 3 ltac:(lia)). lia.
  - rewrite Ht. pose proof (Nat.mod_upper_bound (fn_taps_spec L hist) 3 ltac:(lia)). lia.
Qed.
