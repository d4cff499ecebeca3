From Coq Require Import List ZArith Bool Lia.
From Verif Require Import FwModel FwSpec FwDebounce FwHid FwMatrix FwEncoder FwLed FwMain.
Import ListNotations.
Open Scope Z_scope.

(** ** A press is noticed within the debounce time *)

Lemma nth_error_map' {A B} (f : A -> B) l n : nth_error (map f l) n = option_map f (nth_error l n).
Proof. revert l; induction n; intros [|x l]; cbn; auto. Qed.

Lemma column_const k b js :
  Forall (fun i => nth k (i_samples i) true = b) js -> column k js = repeat b (length js).
Proof. unfold column. induction 1 as [|i l Hi Hl IH]; cbn [map length repeat]; [reflexivity|]. rewrite Hi, IH. reflexivity. Qed.

Lemma deb_outs_prefix T xs ys : exists zs, deb_outs T (xs ++ ys) = deb_outs T xs ++ zs /\ length zs = length ys.
Proof.
  unfold deb_outs. rewrite deb_run_app. pose proof (deb_run_length T) as Hl.
  destruct (deb_run T 0 xs) as [st1 o1] eqn:E1. specialize (Hl st1 ys).
  destruct (deb_run T st1 ys) as [st2 o2] eqn:E2. cbn [snd] in *. exists o2. auto.
Qed.

Lemma fw_noticed L is js f outs k b :
  Forall wf_input (is ++ js) -> (k < KEYS)%nat ->
  reported_level (deb_outs 8 (column k is)) = negb b ->
  Forall (fun i => nth k (i_samples i) true = b) js -> length js = 8%nat ->
  fw_run L (is ++ js) fw_init = Some (f, outs) ->
  exists n o, (length is <= n < length is + 8)%nat /\ nth_error outs n = Some o /\
              switch_reports k o = [b].
Proof.
  intros Hwf Hk Hl Hj Hlen H.
  pose proof (switch_stream L _ f outs k H Hwf Hk) as Hs.
  rewrite column_app, (column_const k b js Hj), Hlen in Hs.
  destruct (deb_latency 8 (column k is) ltac:(lia)) as (n & Hn & Hr). cbv zeta in Hr.
  rewrite Hl, negb_involutive in Hr. change (Z.to_nat 8) with 8%nat in Hn.
  assert (Hnth : nth_error (deb_outs 8 (column k is ++ repeat b 8)) (length is + n) = Some (Some b)).
  { replace 8%nat with (n + (1 + (7 - n)))%nat by lia. rewrite repeat_app, (repeat_app b 1), app_assoc, app_assoc.
    destruct (deb_outs_prefix 8 ((column k is ++ repeat b n) ++ repeat b 1) (repeat b (7 - n))) as (zs & -> & _).
    cbn [repeat]. rewrite deb_outs_snoc, <- deb_next_eq, Hr.
    assert (Hll : length (deb_outs 8 (column k is ++ repeat b n)) = (length is + n)%nat).
    { rewrite deb_outs_length, app_length, repeat_length. unfold column. rewrite map_length. reflexivity. }
    rewrite <- app_assoc, nth_error_app2 by lia. rewrite Hll, Nat.sub_diag. reflexivity. }
  assert (Hm : nth_error (map (switch_reports k) outs) (length is + n) = Some [b]).
  { rewrite Hs, nth_error_map', Hnth. reflexivity. }
  rewrite nth_error_map' in Hm. destruct (nth_error outs (length is + n)) as [o|] eqn:E; [|discriminate].
  exists (length is + n)%nat, o. cbn in Hm. injection Hm as Hm. split; [lia|auto].
Qed.

(** ** ... and is in the report of that tick *)

Lemma kstale_ordinary_add c h :
  0 < c < 256 -> pressed h c = false -> (is_modifier c = true \/ has_room h = true) ->
  kstale (addKeycode c h) = true.
Proof.
  intros Hc Hp Hroom. unfold addKeycode. unfold pressed in Hp.
  destruct (is_modifier c) eqn:Em.
  - cbn. apply is_modifier_range in Em. rewrite lor_new by (try exact Hp; lia). reflexivity.
  - assert ((c =? 0) = false) as Hc0 by (apply Z.eqb_neq; lia). rewrite Hc0 in Hp. cbn [negb andb] in Hp.
    rewrite Hp. destruct Hroom as [|Hroom]; [discriminate|].
    destruct (fill_slot c (keycodes h)) eqn:Ef; [reflexivity|].
    apply fill_slot_none in Ef. unfold has_room in Hroom. congruence.
Qed.

(* adding or removing an ordinary code never clears the stale flag *)
Lemma kstale_keep_add s u h :
  (page u = PAGE_KEYBOARD -> is_modifier (code8 u) = false) ->
  kstale h = true -> kstale (fst (hid_add s u h)) = true.
Proof.
  intros Hm H. unfold hid_add. destruct s; [exact H|].
  destruct (page u =? PAGE_KEYBOARD) eqn:E; cbn [fst].
  - apply Z.eqb_eq in E. unfold addKeycode. rewrite (Hm E).
    destruct (existsb _ _); [exact H|]. destruct (fill_slot _ _); [reflexivity|exact H].
  - destruct (page u =? PAGE_CONSUMER); cbn [fst]; [|exact H]. unfold addConsumer.
    destruct (consumer h =? _); exact H.
Qed.

Lemma kstale_keep_remove u h :
  (page u = PAGE_KEYBOARD -> is_modifier (code8 u) = false) ->
  kstale h = true -> kstale (hid_remove u h) = true.
Proof.
  intros Hm H. unfold hid_remove. destruct (page u =? PAGE_KEYBOARD) eqn:E.
  - apply Z.eqb_eq in E. unfold removeKeycode. rewrite (Hm E).
    destruct (_ =? 0); [exact H|]. destruct (clear_slot _ _); [reflexivity|exact H].
  - destruct (page u =? PAGE_CONSUMER); [|exact H]. unfold addConsumer. destruct (consumer h =? _); exact H.
Qed.

Definition enc_usage (u : Z) : Prop := u = kNONE \/ u = ENCODER_CW_USAGE \/ u = ENCODER_CCW_USAGE.

Lemma enc_usage_plain u : enc_usage u -> is_modifier (code8 u) = false.
Proof. intros [->|[->| ->]]; reflexivity. Qed.

Lemma enc_step_usage s a b : enc_usage (snd (enc_step s a b)).
Proof.
  unfold enc_step, enc_usage. cbn [snd]. destruct (_ =? 7); [auto|]. destruct (_ =? 27); auto.
Qed.

Lemma current_usage L is f outs :
  fw_run L is fw_init = Some (f, outs) -> enc_usage (e_current (f_enc f)).
Proof.
  revert f outs; induction is as [|i is IH] using rev_ind; intros f outs H.
  - injection H as <- <-. left. reflexivity.
  - apply fw_run_snoc in H. destruct H as (f0 & outs0 & o & H0 & Ht & _). specialize (IH _ _ H0).
    apply fw_tick_inv in Ht. destruct Ht as (m1 & h1 & e1 & h2 & e2 & _ & _ & Hst & He & _).
    pose proof (enc_step_usage (e_state (f_enc f0)) (i_a i) (i_b i)) as Hu. rewrite Hst in Hu. cbn [snd] in Hu.
    unfold ereport in He. destruct (negb (e_timeout _ =? 0)).
    + injection He as <- _ _ _. exact IH.
    + destruct (negb (e_current (f_enc f0) =? kNONE)); destruct (negb (o_usage o =? kNONE));
        try (destruct (hid_add _ _ _)); injection He as <- _ _ _; auto; left; reflexivity.
Qed.

Lemma code8_kNONE : code8 kNONE = 0. Proof. reflexivity. Qed.

Lemma ereport_kstale susp u c t h :
  enc_usage u -> enc_usage c -> kstale h = true -> kstale (snd (fst (ereport susp u c t h))) = true.
Proof.
  intros Hu Hc H. unfold ereport. destruct (negb (t =? 0)); [exact H|].
  pose proof (fun _ : page u = PAGE_KEYBOARD => enc_usage_plain u Hu) as Pu.
  pose proof (fun _ : page c = PAGE_KEYBOARD => enc_usage_plain c Hc) as Pc.
  destruct (negb (c =? kNONE)); destruct (negb (u =? kNONE)); try exact H; try (apply kstale_keep_remove; assumption).
  - pose proof (kstale_keep_add susp u _ Pu (kstale_keep_remove c h Pc H)) as Ha. destruct (hid_add susp u _). exact Ha.
  - pose proof (kstale_keep_add susp u _ Pu H) as Ha. destruct (hid_add susp u _). exact Ha.
Qed.

Lemma hid_add_pressed s u h c :
  report_ok h -> 0 < c < 256 -> pressed h c = true -> pressed (fst (hid_add s u h)) c = true.
Proof.
  intros Hok Hc H. unfold hid_add. destruct s; [exact H|].
  destruct (page u =? PAGE_KEYBOARD) eqn:E; cbn [fst].
  - rewrite pressed_add by (try apply code8_range; lia). rewrite H. reflexivity.
  - destruct (page u =? PAGE_CONSUMER); cbn [fst]; [rewrite pressed_consumer|]; exact H.
Qed.

Lemma ereport_pressed susp u cur t h c :
  report_ok h -> 0 < c < 256 -> ~ enc_has cur c -> pressed h c = true ->
  pressed (snd (fst (ereport susp u cur t h))) c = true.
Proof.
  intros Hok Hc Hn H. unfold ereport. destruct (negb (t =? 0)); [exact H|].
  destruct (cur =? kNONE) eqn:Ec; cbn [negb].
  - destruct (negb (u =? kNONE)); [|exact H].
    pose proof (hid_add_pressed susp u h c Hok Hc H) as Ha. destruct (hid_add susp u h). exact Ha.
  - apply Z.eqb_neq in Ec.
    assert (Hr : pressed (hid_remove cur h) c = true).
    { rewrite pressed_hid_remove by assumption. rewrite H. cbn [andb]. apply negb_true_iff.
      apply andb_false_iff. destruct (page cur =? PAGE_KEYBOARD) eqn:Ep; [right|left; reflexivity].
      apply Z.eqb_neq. intros ->. apply Hn. apply Z.eqb_eq in Ep. split; auto. }
    destruct (negb (u =? kNONE)); [|exact Hr].
    pose proof (hid_add_pressed susp u _ c (hid_remove_ok cur h Hok) Hc Hr) as Ha. destruct (hid_add susp u _). exact Ha.
Qed.

(* a press of a key that is the only event of its tick *)
Lemma fw_press_sent L is i f0 outs0 f o k c :
  fw_run L is fw_init = Some (f0, outs0) -> fw_tick L i f0 = Some (f, o) ->
  o_reports o = [(k, false)] -> i_susp i = false -> is_fn L k = false ->
  page (L (layer (f_mat f0)) k) = PAGE_KEYBOARD -> code8 (L (layer (f_mat f0)) k) = c -> 0 < c ->
  pressed (f_hid f0) c = false -> is_modifier c = true \/ has_room (f_hid f0) = true ->
  ~ enc_has (e_current (f_enc f0)) c ->
  k_ready (i_bus i) = true -> k_accept (i_bus i) = true ->
  pressed (f_hid f) c = true /\
  exists s, In s (o_sent o) /\ sent_has s c.
Proof.
  intros Hrun Ht Hrep Hsusp Hfn Hpage Hcode Hc Hnp Hroom Henc Hr Ha.
  pose proof (fw_report_ok _ _ _ _ Hrun) as Hok. pose proof (current_usage _ _ _ _ Hrun) as Hcu.
  assert (Hc8 : 0 < c < 256) by (pose proof (code8_range (L (layer (f_mat f0)) k)); lia).
  apply fw_tick_inv in Ht. destruct Ht as (m1 & h1 & e1 & h2 & e2 & _ & Hm & Hst & He & Hh & _).
  assert (Hh1 : h1 = addKeycode c (f_hid f0)).
  { rewrite Hrep in Hm. cbn [mreports] in Hm. cbn [mreport] in Hm. rewrite fn_test, Hfn, Hsusp in Hm.
    unfold hid_add in Hm. rewrite Hpage, Hcode in Hm. change (PAGE_KEYBOARD =? PAGE_KEYBOARD) with true in Hm.
    cbn iota in Hm.
    destruct (L (layer (f_mat f0)) k =? kBOOT) eqn:Eb.
    - apply Z.eqb_eq in Eb. rewrite Eb in Hpage. discriminate.
    - injection Hm as _ <- _. reflexivity. }
  assert (Hp1 : pressed h1 c = true).
  { rewrite Hh1, pressed_add, Z.eqb_refl by lia. assert ((c =? 0) = false) as -> by (apply Z.eqb_neq; lia).
    cbn [negb andb]. destruct Hroom as [->| ->]; cbn; rewrite ?orb_true_r; reflexivity. }
  assert (Hk1 : kstale h1 = true) by (rewrite Hh1; apply kstale_ordinary_add; assumption).
  assert (Hok1 : report_ok h1) by (rewrite Hh1; apply add_ok; [lia|exact Hok]).
  pose proof (enc_step_usage (e_state (f_enc f0)) (i_a i) (i_b i)) as Hu. rewrite Hst in Hu. cbn [snd] in Hu.
  pose proof (ereport_kstale (i_susp i) _ _ (e_timeout (f_enc f0)) h1 Hu Hcu Hk1) as Hk2.
  pose proof (ereport_pressed (i_susp i) (o_usage o) _ (e_timeout (f_enc f0)) h1 c Hok1 Hc8 Henc Hp1) as Hp2.
  rewrite He in Hk2, Hp2. cbn [fst snd] in Hk2, Hp2.
  assert (Hsent : In (SentKeyboard (modifiers h2) (keycodes h2)) (o_sent o)).
  { unfold hid_tick in Hh. rewrite Hk2, Hr, Ha in Hh. cbn in Hh.
    destruct (cstale h2 && c_ready (i_bus i)); injection Hh as _ <-; cbn; auto. }
  assert (Hdat : pressed (f_hid f) c = pressed h2 c).
  { destruct (hid_tick_data (i_bus i) h2) as (E1 & E2 & _). rewrite Hh in E1, E2. cbn [fst] in E1, E2.
    unfold pressed. rewrite E1, E2. reflexivity. }
  split; [rewrite Hdat; exact Hp2|]. exists (SentKeyboard (modifiers h2) (keycodes h2)). split; [exact Hsent|].
  exact Hp2.
Qed.

(** ** A held key keeps its code *)

(* does an operation take code c away *)
Definition takes (L : layers_t) (c : Z) (cur : Z) (o : op) : Prop :=
  match o with
  | OpKey e => es e = true /\ key_has L (ek e) c
  | OpEnc _ _ => enc_has cur c
  | OpTick _ => False
  end.

Lemma op_keeps L ops o c :
  0 < c < 256 -> pressed (o_hid (ostate L ops)) c = true ->
  ~ takes L c (o_cur (ostate L ops)) o ->
  pressed (o_hid (ostate L (o :: ops))) c = true.
Proof.
  intros Hc Hp Hn. destruct (src_all L ops) as (Hok & _). cbn [ostate].
  destruct (ostate L ops) as [m h cur tmo]. cbn [o_hid o_cur] in *.
  destruct o as [e|u s|b]; cbn [apply_op o_mat o_hid o_cur o_tmo takes] in *.
  - unfold apply_kev. cbn [mreport]. rewrite fn_test. destruct (is_fn L (ek e)) eqn:Efn.
    { destruct (es e); exact Hp. }
    destruct (es e) eqn:Ees.
    + cbn [fst o_hid]. assert (Hk : forall b, (page (L b (ek e)) =? PAGE_KEYBOARD) && (c =? code8 (L b (ek e))) = false).
      { intros b. apply andb_false_iff. destruct (page (L b (ek e)) =? PAGE_KEYBOARD) eqn:E1; [right|left; reflexivity].
        apply Z.eqb_neq. intros E2. apply Hn. split; [reflexivity|]. split; [exact Efn|].
        exists b. apply Z.eqb_eq in E1. auto. }
      rewrite !pressed_hid_remove by (try apply hid_remove_ok; assumption).
      rewrite Hp, !Hk. reflexivity.
    + destruct (_ =? kBOOT); [exact Hp|].
      pose proof (hid_add_pressed (esusp e) (L (layer m) (ek e)) h c Hok Hc Hp) as Ha.
      destruct (hid_add (esusp e) (L (layer m) (ek e)) h). exact Ha.
  - pose proof (ereport_pressed s u cur tmo h c Hok Hc Hn Hp) as Hx.
    destruct (ereport s u cur tmo h) as [[[cc tt] hh] ee]. exact Hx.
  - destruct (hid_tick_data b h) as (E1 & E2 & _). unfold pressed in *. rewrite E1, E2. exact Hp.
Qed.

Fixpoint never_taken (L : layers_t) (c : Z) (newer older : list op) : Prop :=
  match newer with
  | [] => True
  | o :: r => ~ takes L c (o_cur (ostate L (r ++ older))) o /\ never_taken L c r older
  end.

Lemma held_keeps L newer older c :
  0 < c < 256 -> pressed (o_hid (ostate L older)) c = true -> never_taken L c newer older ->
  pressed (o_hid (ostate L (newer ++ older))) c = true.
Proof.
  intros Hc Hp. induction newer as [|o newer IH]; intros Hn; [exact Hp|].
  destruct Hn as [Ho Hn]. cbn [app]. apply op_keeps; [exact Hc|apply IH; exact Hn|exact Ho].
Qed.

(* every encoder operation in the history has usage in the set U *)
Lemma cur_in_usages L ops P :
  P kNONE -> (forall u s, In (OpEnc u s) ops -> P u) -> P (o_cur (ostate L ops)).
Proof.
  intros H0. induction ops as [|o ops IH]; intros H; [exact H0|].
  assert (IH' : P (o_cur (ostate L ops))) by (apply IH; intros u s Hin; apply (H u s); right; exact Hin).
  cbn [ostate]. destruct (ostate L ops) as [m h cur tmo]. cbn [o_cur] in IH'.
  destruct o as [e|u s|b]; cbn [apply_op o_mat o_hid o_cur o_tmo].
  - destruct (fst (apply_kev L e (m, h))). exact IH'.
  - pose proof (H u s (or_introl eq_refl)) as Hu. unfold ereport.
    destruct (negb (tmo =? 0)); [exact IH'|].
    destruct (negb (cur =? kNONE)); destruct (negb (u =? kNONE)); try (destruct (hid_add _ _ _)); auto.
  - exact IH'.
Qed.

(* the only key with that code is not released: the code stays *)
Lemma unique_key_stays L newer older k c :
  0 < c < 256 -> pressed (o_hid (ostate L older)) c = true ->
  (forall k', key_has L k' c -> k' = k) ->
  (forall u s, In (OpEnc u s) (newer ++ older) -> ~ enc_has u c) ->
  (forall e, In (OpKey e) newer -> ek e = k -> es e = false) ->
  pressed (o_hid (ostate L (newer ++ older))) c = true.
Proof.
  intros Hc Hp Huniq Henc Hheld. apply held_keeps; [exact Hc|exact Hp|].
  induction newer as [|o newer IH]; [exact I|]. split.
  - destruct o as [e|u s|b]; cbn [takes].
    + intros [Hs Hk]. pose proof (Hheld e (or_introl eq_refl) (Huniq _ Hk)). congruence.
    + apply (cur_in_usages L (newer ++ older) (fun cur => ~ enc_has cur c)).
      * intros [H _]. apply H. reflexivity.
      * intros u' s' Hin. apply (Henc u' s'). right. exact Hin.
    + tauto.
  - apply IH; [intros u s Hin; apply (Henc u s); right; exact Hin|].
    intros e He. apply Hheld. right. exact He.
Qed.

(** ** Suspended bus *)

Lemma suspended_add u h : hid_add true u h = (h, true).
Proof. reflexivity. Qed.

Lemma suspended_event L e s :
  esusp e = true -> es e = false ->
  snd (fst (apply_kev L e s)) = snd s /\
  (is_fn L (ek e) = false -> L (layer (fst s)) (ek e) <> kBOOT -> snd (apply_kev L e s) = [EffWakeup]).
Proof.
  intros Hsusp Hes. destruct s as [m h]. unfold apply_kev. cbn [mreport]. rewrite fn_test, Hsusp, Hes.
  destruct (is_fn L (ek e)); [split; [reflexivity|discriminate]|].
  destruct (L (layer m) (ek e) =? kBOOT) eqn:E; cbn.
  - split; [reflexivity|]. intros _ H. apply Z.eqb_eq in E. contradiction.
  - split; reflexivity.
Qed.

Lemma release_ignores_bus L k s b b' :
  mreport L b k true s = mreport L b' k true s.
Proof. destruct s as [m h]. cbn [mreport]. destruct (_ || _); reflexivity. Qed.

Lemma tick_ignores_suspend L i f f' o :
  i_susp i = true -> fw_tick L i f = Some (f', o) ->
  forall c, 0 < c < 256 -> report_ok (f_hid f) -> pressed (f_hid f') c = true -> pressed (f_hid f) c = true.
Proof.
  intros Hs Ht c Hc Hok. apply fw_tick_inv in Ht.
  destruct Ht as (m1 & h1 & e1 & h2 & e2 & _ & Hm & _ & He & Hh & _). rewrite Hs in *.
  assert (H1 : forall evs m h, report_ok h -> report_ok (snd (fst (mreports L true evs (m, h)))) /\
      (pressed (snd (fst (mreports L true evs (m, h)))) c = true -> pressed h c = true)).
  { induction evs as [|[k b] evs IH]; intros m h Hokh; [cbn; auto|]. cbn [mreports].
    assert (H2 : report_ok (snd (fst (mreport L true k b (m, h)))) /\
      (pressed (snd (fst (mreport L true k b (m, h)))) c = true -> pressed h c = true)).
    { cbn [mreport]. destruct (_ || _); [destruct b; cbn; auto|]. destruct b; cbn [fst snd].
      - split; [apply hid_remove_ok, hid_remove_ok, Hokh|].
        rewrite !pressed_hid_remove by (try apply hid_remove_ok; assumption).
        rewrite !andb_true_iff. tauto.
      - destruct (_ =? kBOOT); cbn; auto. }
    destruct (mreport L true k b (m, h)) as [[m' h'] e']. cbn [fst snd] in H2.
    destruct H2 as [Hok' Hp']. specialize (IH m' h' Hok'). destruct (mreports L true evs (m', h')).
    cbn [fst snd] in *. tauto. }
  specialize (H1 (o_reports o) (f_mat f) (f_hid f) Hok). rewrite Hm in H1. cbn [fst snd] in H1. destruct H1 as [Hok1 H1].
  assert (H2 : pressed h2 c = true -> pressed h1 c = true).
  { unfold ereport in He. destruct (negb (e_timeout _ =? 0)); [injection He as _ _ <- _; auto|].
    destruct (negb (e_current (f_enc f) =? kNONE)); destruct (negb (o_usage o =? kNONE)); cbn [hid_add] in He;
      injection He as _ _ <- _; auto; rewrite pressed_hid_remove by assumption; rewrite andb_true_iff; tauto. }
  intros Hp. apply H1, H2. destruct (hid_tick_data (i_bus i) h2) as (E1 & E2 & _). rewrite Hh in E1, E2. cbn [fst] in *.
  unfold pressed in *. rewrite <- E1, <- E2. exact Hp.
Qed.

(** ** Defects, exhibited on the shipped layout *)

Definition after {A} (r : option A) (d : A) : A := match r with Some x => x | None => d end.

(* left shift (switch 39) tapped, then nothing for ever *)
Lemma shift_stuck_state :
  let r := after (run_default (repeat (down [39%nat]) 8 ++ repeat idle 8)) (fw_init, []) in
  fw_tick default_layers idle (fst r) = Some (fst r, mkOutput [] kNONE [] []) /\
  report_empty (f_hid (fst r)) /\ host_mods (fw_host (snd r)) = 2.
Proof. vm_compute. repeat split. Qed.

Lemma fix_run L i f o n :
  fw_tick L i f = Some (f, o) -> fw_run L (repeat i n) f = Some (f, repeat o n).
Proof.
  intros H. induction n as [|n IH]; cbn [repeat fw_run]; [reflexivity|]. rewrite H, IH. reflexivity.
Qed.

Lemma fw_host_quiet outs n o : o_sent o = [] -> fw_host (outs ++ repeat o n) = fw_host outs.
Proof.
  intros H. unfold fw_host. rewrite flat_map_app.
  assert (E : flat_map o_sent (repeat o n) = []) by (induction n; cbn; [reflexivity|rewrite H; exact IHn]).
  rewrite E, app_nil_r. reflexivity.
Qed.

Lemma shift_release_lost n :
  exists f outs,
    run_default (repeat (down [39%nat]) 8 ++ repeat idle (8 + n)) = Some (f, outs) /\
    report_empty (f_hid f) /\ host_mods (fw_host outs) = 2.
Proof.
  pose proof shift_stuck_state as H. cbv zeta in H.
  destruct (run_default (repeat (down [39%nat]) 8 ++ repeat idle 8)) as [[f outs]|] eqn:E; [|vm_compute in E; discriminate].
  cbn [after fst snd] in H. destruct H as (Ht & He & Hh).
  exists f, (outs ++ repeat (mkOutput [] kNONE [] []) n). split.
  - rewrite repeat_app, app_assoc. unfold run_default in *. rewrite fw_run_app, E, (fix_run _ _ _ _ n Ht). reflexivity.
  - split; [exact He|]. rewrite fw_host_quiet by reflexivity. exact Hh.
Qed.

(** ** LED and USB callbacks *)

Lemma land3 b : Z.land b 3 = Z.b2z (Z.testbit b 0) + 2 * Z.b2z (Z.testbit b 1).
Proof.
  change 3 with (Z.ones 2). rewrite Z.land_ones by lia. change (2 ^ 2) with 4.
  pose proof (Z.bit0_mod b) as H0. pose proof (Z.testbit_spec' b 1 ltac:(lia)) as H1.
  change (2 ^ 1) with 2 in H1. rewrite H0, H1.
  exact (Z.rem_mul_r b 2 2 ltac:(lia) ltac:(lia)).
Qed.

Lemma usb_callback_led e l :
  usb_callback e l = match led_request e with Some p => led_blink p l | None => l end.
Proof.
  destruct e as [itf id type buf|]; [|reflexivity]. destruct buf as [|b0 [|b1 buf]]; try reflexivity.
  cbn [usb_callback led_request]. unfold ITF_KEYBOARD, HID_REPORT_TYPE_OUTPUT.
  destruct (_ && _); [|reflexivity]. rewrite land3.
  destruct (Z.testbit b0 0), (Z.testbit b0 1); reflexivity.
Qed.

Lemma led_request_range e p : led_request e = Some p -> 0 <= p < 256.
Proof.
  destruct e as [itf id type buf|]; cbn [led_request]; [|intros H; injection H as <-; lia].
  destruct buf as [|b0 [|b1 buf]]; try discriminate. destruct (_ && _); [|discriminate].
  destruct (Z.testbit b0 0), (Z.testbit b0 1); intros H; injection H as <-; lia.
Qed.

Lemma fw_led_ok L is f outs : fw_run L is fw_init = Some (f, outs) -> led_ok (f_led f).
Proof.
  revert f outs; induction is as [|i is IH] using rev_ind; intros f outs H.
  - injection H as <- <-. apply (lstate_ok []). constructor.
  - apply fw_run_snoc in H. destruct H as (f0 & outs0 & o & H0 & Ht & _). specialize (IH _ _ H0).
    apply fw_tick_inv in Ht. destruct Ht as (m1 & h1 & e1 & h2 & e2 & _ & _ & _ & _ & _ & _ & _ & ->).
    apply led_tick_ok in IH. revert IH. generalize (led_tick (f_led f0)).
    induction (i_events i) as [|e es IHe]; intros l Hl; [exact Hl|]. cbn [fold_left]. apply IHe.
    rewrite usb_callback_led. destruct (led_request e) as [p|] eqn:E; [|exact Hl].
    apply led_request_range in E. unfold led_blink. destruct (p =? pattern l); [exact Hl|].
    destruct Hl as (A & B & C & D). unfold led_ok; cbn [pattern index ticks blink pin]. unfold LED_BLINK_TICKS.
    repeat split; try lia. exact D.
Qed.

(** ** USB strings *)

Lemma le16_length s : length (flat_map le16 s) = (2 * length s)%nat.
Proof. induction s; cbn [flat_map le16 app length]; [reflexivity|]. rewrite IHs. lia. Qed.

Lemma le16_nth s i : (i < length s)%nat -> (forall x, In x s -> 0 <= x < 65536) ->
  nth (2 * i) (flat_map le16 s) 0 + 256 * nth (1 + 2 * i) (flat_map le16 s) 0 = nth i s 0.
Proof.
  revert i; induction s as [|x s IH]; intros i Hi Hr; cbn [length] in Hi; [lia|].
  destruct i as [|i].
  - cbn [flat_map le16 app nth Nat.mul Nat.add].
    specialize (Hr x (or_introl eq_refl)).
    rewrite (Z.mod_small (x / 256)) by (split; [apply Z.div_pos; lia|apply Z.div_lt_upper_bound; lia]).
    pose proof (Z.div_mod x 256 ltac:(lia)). lia.
  - replace (2 * S i)%nat with (2 + 2 * i)%nat by lia. cbn [flat_map le16 app nth Nat.add].
    rewrite <- (IH i) by (try lia; intros y Hy; apply Hr; right; exact Hy). reflexivity.
Qed.

Lemma packed_ok s :
  (length s <= 126)%nat -> (forall x, In x s -> 0 <= x < 65536) -> descriptor_ok (packed_string s) s.
Proof.
  intros Hl Hr. unfold descriptor_ok, packed_string. cbn [nth length].
  rewrite le16_length. repeat split; try lia.
  intros i Hi. cbn [Nat.add nth]. apply (le16_nth s i Hi Hr).
Qed.

Lemma map_nth_seq (l : list Z) : map (fun i => nth i l 0) (seq 0 (length l)) = l.
Proof.
  induction l as [|x l IH]; [reflexivity|]. cbn [length seq map]. rewrite <- seq_shift, map_map. cbn. f_equal. exact IH.
Qed.

Lemma string_ok index ascii d :
  length ascii = 16%nat -> (forall x, In x ascii -> 0 <= x < 256) ->
  string_cb index ascii = Some d -> descriptor_ok d (text_of index ascii).
Proof.
  intros Hl Hr H.
  assert (H0 : index = 0 \/ index = 1 \/ index = 2 \/ index = 3).
  { unfold string_cb in H. destruct index as [|p|p]; auto; [|discriminate].
    destruct p as [[p|p|]|[p|p|]|]; try discriminate; auto. }
  destruct H0 as [->|[->|[->| ->]]]; cbn [text_of string_cb] in *.
  - assert (d = packed_string languageString) as -> by congruence.
    apply (packed_ok languageString); [cbn; lia|]. cbn. intros x [<-|[]]; lia.
  - assert (d = packed_string manufactString) as -> by congruence.
    apply (packed_ok manufactString); [cbn; lia|]. unfold manufactString; cbn. intros x Hx. repeat destruct Hx as [<-|Hx]; try lia.
  - assert (d = packed_string productString) as -> by congruence.
    apply (packed_ok productString); [cbn; lia|]. unfold productString; cbn. intros x Hx. repeat destruct Hx as [<-|Hx]; try lia.
  - assert (d = flat_map le16 (serialString ascii)) as -> by congruence. clear H.
    unfold serialString.
    change (Z.lor (Z.shiftl TUSB_DESC_STRING 8) (2 * Z.of_nat (SERIAL_DIGITS + 1))) with 0x322.
    replace (map (fun i => nth i ascii 0) (seq 0 SERIAL_DIGITS)) with ascii
      by (change SERIAL_DIGITS with 16%nat; rewrite <- Hl; symmetry; apply map_nth_seq).
    change (flat_map le16 (0x322 :: ascii)) with (34 :: 3 :: flat_map le16 ascii).
    unfold descriptor_ok. cbn [nth length]. rewrite le16_length, Hl. repeat split.
    intros i Hi. apply (le16_nth ascii i); [lia|]. intros x Hx. specialize (Hr x Hx). lia.
Qed.

Lemma string_null index ascii : string_cb index ascii = None <-> ~ (0 <= index <= 3).
Proof.
  unfold string_cb. destruct index as [|p|p]; [split; [discriminate|lia]| |split; [lia|reflexivity]].
  destruct p as [[p|p|]|[p|p|]|]; split; try discriminate; try lia; reflexivity.
Qed.
