(** Property theorems C01 - C18 about the firmware. *)
From Coq Require Import List ZArith Bool Lia.
From Verif Require Import FwModel FwSpec FwDebounce FwHid FwMatrix FwEncoder FwLed FwMain FwMore.
Import ListNotations.
Open Scope Z_scope.

(** C01: for every sample history the reports alternate press (false),
    release (true), ... starting with a press, and a report carries the level
    of the sample that triggered it. *)
Theorem C01_debounce_alternates : forall T xs,
  1 <= T <= 127 ->
  alternates false (somes (deb_outs T xs)) /\
  (forall x s, deb_next T xs x = Some s -> s = x).
Proof. intros T xs HT. split; [exact (deb_alternates T xs HT)|]. intros x s. exact (deb_reports_sample T xs x s HT). Qed.
Print Assumptions C01_debounce_alternates.

Example C01_nonvacuous : somes (deb_outs 2 [false;true;false;false;true;false;true;true;true]) = [false;true].
Proof. reflexivity. Qed.

(** C02: exactly when a report happens: the new level is opposite to the
    reported one and some window of the samples since the last report, ending
    now, has at least T more samples of the new than of the old level; hence
    at least T samples of the new level arrived since the last report. *)
Theorem C02_debounce_needs_evidence : forall T xs x s,
  1 <= T <= 127 ->
  (deb_next T xs x = Some s <->
   s = x /\ x = negb (reported_level (deb_outs T xs)) /\
   exists u v, since_report xs (deb_outs T xs) ++ [x] = u ++ v /\ T <= lead x v) /\
  (deb_next T xs x = Some s -> T <= count_level s (since_report xs (deb_outs T xs) ++ [x])).
Proof. intros T xs x s HT. split; [exact (deb_exact T xs x s HT)|exact (deb_needs_samples T xs x s HT)]. Qed.
Print Assumptions C02_debounce_needs_evidence.

Example C02_nonvacuous : deb_next 3 [false;true;false;false] false = Some false /\ deb_next 3 [false;true;false] false = None.
Proof. split; reflexivity. Qed.

(** C03: T consecutive samples opposite to the reported level always report,
    at the latest with the last of them. *)
Theorem C03_debounce_latency : forall T xs,
  1 <= T <= 127 ->
  let b := negb (reported_level (deb_outs T xs)) in
  exists k, (k < Z.to_nat T)%nat /\ deb_next T (xs ++ repeat b k) b = Some b.
Proof. exact deb_latency. Qed.
Print Assumptions C03_debounce_latency.

Example C03_nonvacuous : deb_next 8 ([true;false;true] ++ repeat false 7) false = Some false.
Proof. reflexivity. Qed.

(** C04: with T <= 127 the 8-bit arithmetic never wraps; with T >= 128 no
    switch would ever report. *)
Theorem C04_debounce_byte : 
  (forall T xs x, 1 <= T <= 127 ->
     let st := fst (deb_run T 0 xs) in
     0 <= st /\ st + 2 <= 255 /\ debounce T st x = debounce_nowrap T st x) /\
  (forall T xs, 128 <= T -> somes (deb_outs T xs) = []).
Proof. split; [exact debounce_no_overflow|exact debounce_dead]. Qed.
Print Assumptions C04_debounce_byte.

Example C04_nonvacuous : fst (deb_run 127 0 (repeat false 126)) = 252 /\ deb_next 127 (repeat false 126) false = Some false
  /\ deb_next 128 (repeat false 300) false = None.
Proof. vm_compute. auto. Qed.

(** C05: the reports of switch k over any scan history are the debounced
    stream of its own samples; a scan handles every switch once, in order. *)
Theorem C05_switches_independent : forall T rows n k,
  (forall row, In row rows -> length row = n) -> (k < n)%nat ->
  map (filter (fun e => Nat.eqb (fst e) k)) (snd (scan_run T (repeat 0 n) rows)) =
  map (fun o => map (fun b => (k, b)) (option_list o)) (deb_outs T (map (fun row => nth k row true) rows)).
Proof.
  intros T rows n k Hr Hk. pose proof (scan_independent T (repeat 0 n) rows k) as H.
  rewrite repeat_length, nth_repeat in H. exact (H Hr Hk).
Qed.
Print Assumptions C05_switches_independent.

Theorem C05_scan_order : forall T deb row,
  (forall e, In e (snd (scan T 0 deb row)) -> (fst e < length deb)%nat) /\
  Sorted.StronglySorted (fun a b => (fst a < fst b)%nat) (snd (scan T 0 deb row)).
Proof.
  intros T deb row. destruct (scan_keys T 0 deb row) as [H1 H2]. split; [|exact H2].
  intros e He. specialize (H1 e He). lia.
Qed.
Print Assumptions C05_scan_order.

Example C05_nonvacuous : snd (scan_run 2 [0;0;0] [[false;true;false];[false;true;true];[true;true;false];[true;false;false]])
  = [[]; [(0%nat,false)]; []; [(0%nat,true);(2%nat,false)]].
Proof. reflexivity. Qed.

(** C06: the active layer equals the layer specification (Fn held: Fn layer;
    released: locked iff it was tap number 2, 5, 8, ... without a code key in
    between; otherwise base), for every history of the whole main loop and
    every table with one Fn switch; the shipped table is such a table. *)
Theorem C06_fn_layer : forall L kf is f outs,
  single_fn L kf -> Forall wf_input is -> fw_run L is fw_init = Some (f, outs) ->
  layer (f_mat f) = layer_spec L (fw_keys is outs).
Proof. exact fw_layer. Qed.
Print Assumptions C06_fn_layer.

Theorem C06_fn_layer_events : forall L hist,
  fn_alternates L hist -> layer (fst (kstate L hist)) = layer_spec L hist.
Proof. intros L hist H. exact (proj1 (layer_refines L hist H)). Qed.
Print Assumptions C06_fn_layer_events.

Theorem C06_default_table : single_fn default_layers 26.
Proof. split; [unfold KEYS; lia|exact default_fn_key]. Qed.
Print Assumptions C06_default_table.

Example C06_nonvacuous :
  let tap k := [mkKev k true false; mkKev k false false] in
  layer_spec default_layers (tap 26%nat) = false /\
  layer_spec default_layers (tap 26%nat ++ tap 26%nat) = true /\
  layer_spec default_layers (tap 14%nat ++ tap 26%nat ++ tap 26%nat) = true /\
  layer_spec default_layers (tap 26%nat ++ tap 14%nat ++ tap 26%nat ++ tap 26%nat) = false /\
  layer_spec default_layers (tap 26%nat ++ tap 26%nat ++ tap 26%nat) = false /\
  fn_alternates default_layers (tap 14%nat ++ tap 26%nat ++ tap 26%nat).
Proof. cbn. tauto. Qed.

(** C07: the bootloader is requested in a tick exactly when one of its events
    is a press of kBOOT on the active layer that is (at least) the third one
    without a code-producing press in between. *)
Theorem C07_bootloader : forall L kf is i f outs o,
  single_fn L kf -> Forall wf_input (is ++ [i]) ->
  fw_run L (is ++ [i]) fw_init = Some (f, outs ++ [o]) ->
  (In EffBoot (o_eff o) <->
   exists pre e post, fw_keys (is ++ [i]) (outs ++ [o]) = post ++ e :: pre ++ fw_keys is outs /\
     es e = false /\ is_fn L (ek e) = false /\
     L (layer_spec L (pre ++ fw_keys is outs)) (ek e) = kBOOT /\
     (3 <= boot_taps_spec L (e :: pre ++ fw_keys is outs))%nat).
Proof. exact fw_boot. Qed.
Print Assumptions C07_bootloader.

(* in the shipped table kBOOT is switch 40 on the Fn layer and nothing else *)
Theorem C07_default_boot_key : forall b k,
  (k < KEYS)%nat -> (default_layers b k =? kBOOT) = b && Nat.eqb k 40.
Proof. exact default_boot_key. Qed.
Print Assumptions C07_default_boot_key.

Example C07_nonvacuous :
  let press ks := repeat (down ks) 8 in
  match run_default (press [26] ++ press [26;40] ++ press [26] ++ press [26;40] ++ press [26] ++ press [26;40])%nat with
  | Some (f, outs) => o_eff (last outs (mkOutput [] 0 [] [])) = [EffBoot] /\ flat_map o_eff outs = [EffBoot]
  | None => False
  end.
Proof. vm_compute. auto. Qed.

(** C08: for every table and every input history of the main loop: if every
    switch was last reported released and no encoder pulse is running, the
    report is empty; and after any history 32 untouched ticks suffice. *)
Theorem C08_no_stuck_keys : forall L is f outs,
  fw_run L is fw_init = Some (f, outs) -> Forall wf_input is ->
  (forall k, (k < KEYS)%nat -> reported_level (deb_outs 8 (column k is)) = true) ->
  e_current (f_enc f) = kNONE ->
  report_empty (f_hid f).
Proof. exact fw_no_stuck. Qed.
Print Assumptions C08_no_stuck_keys.

Theorem C08_quiet : forall L is js f outs,
  Forall wf_input is -> Forall idle_input js -> (32 <= length js)%nat ->
  fw_run L (is ++ js) fw_init = Some (f, outs) ->
  report_empty (f_hid f).
Proof. exact fw_quiet. Qed.
Print Assumptions C08_quiet.

Theorem C08_no_stuck_ops : forall L ops,
  (forall k, held ops k = false) -> o_cur (ostate L ops) = kNONE ->
  report_empty (o_hid (ostate L ops)).
Proof. exact no_stuck. Qed.
Print Assumptions C08_no_stuck_ops.

(* a layer change while a key is held *)
Example C08_nonvacuous :
  match run_default (repeat (down [26]) 8 ++ repeat (down [26;14]) 8 ++ repeat (down [14]) 8 ++ repeat idle 8)%nat with
  | Some (f, outs) => report_empty (f_hid f) /\ host_codes (fw_host (firstn 20 outs)) = [0x3A;0;0;0;0;0]
  | None => False
  end.
Proof. vm_compute. auto. Qed.

(** C09: every reachable report is well formed, and the calls act on the set
    of pressed codes as insertion (if there is room) and deletion. *)
Theorem C09_report_well_formed : forall ops, report_ok (hstate ops).
Proof. exact hstate_ok. Qed.
Print Assumptions C09_report_well_formed.

Theorem C09_add_is_insert : forall ops u c,
  page u = PAGE_KEYBOARD -> 0 < c < 256 ->
  let h := hstate ops in
  pressed (hstate (HAdd false u :: ops)) c =
  pressed h c || ((c =? u mod 256) && (is_modifier c || has_room h)).
Proof.
  intros ops u c Hp Hc h. cbn [hstate apply_hop]. fold h. unfold hid_add. rewrite Hp.
  change (PAGE_KEYBOARD =? PAGE_KEYBOARD) with true. cbn [fst].
  rewrite pressed_add by (try apply code8_range; lia). unfold code8.
  destruct (c =? u mod 256) eqn:E; [|reflexivity]. apply Z.eqb_eq in E. rewrite <- E.
  assert ((c =? 0) = false) as -> by (apply Z.eqb_neq; lia). reflexivity.
Qed.
Print Assumptions C09_add_is_insert.

Theorem C09_remove_is_delete : forall ops u c,
  page u = PAGE_KEYBOARD -> 0 < c < 256 ->
  pressed (hstate (HRemove u :: ops)) c = pressed (hstate ops) c && negb (c =? u mod 256).
Proof.
  intros ops u c Hp Hc. cbn [hstate apply_hop fst]. rewrite pressed_hid_remove by (try apply hstate_ok; lia).
  rewrite Hp. reflexivity.
Qed.
Print Assumptions C09_remove_is_delete.

Theorem C09_consumer : forall ops u,
  page u = PAGE_CONSUMER ->
  consumer (hstate (HAdd false u :: ops)) = u mod 65536 /\ consumer (hstate (HRemove u :: ops)) = 0 /\
  (forall c, pressed (hstate (HAdd false u :: ops)) c = pressed (hstate ops) c).
Proof.
  intros ops u Hp. cbn [hstate apply_hop fst]. unfold hid_add, hid_remove. rewrite Hp. cbn [Z.eqb fst].
  change (PAGE_CONSUMER =? PAGE_KEYBOARD) with false. change (PAGE_CONSUMER =? PAGE_CONSUMER) with true. cbn [fst].
  rewrite !consumer_addConsumer. repeat split. intros c. apply pressed_consumer.
Qed.
Print Assumptions C09_consumer.

Example C09_nonvacuous :
  keycodes (hstate (map (fun u => HAdd false u) [0x07000B;0x07000A;0x070009;0x070004;0x070008;0x070007;0x0700E1;0x070006;0x070005;0x070004]))
  = [4;5;6;7;8;9] /\ modifiers (hstate [HAdd false 0x0700E1]) = 2.
Proof. split; reflexivity. Qed.

(** C10 fails: a tap of left shift on the shipped layout leaves the host with
    the modifier pressed for ever although the report is empty and the bus is
    always ready. *)
Theorem C10_changes_reach_host_refuted : forall n,
  exists f outs,
    run_default (repeat (down [39%nat]) 8 ++ repeat idle (8 + n)) = Some (f, outs) /\
    report_empty (f_hid f) /\ host_mods (fw_host outs) = 2.
Proof. exact shift_release_lost. Qed.
Print Assumptions C10_changes_reach_host_refuted.

(** What does hold: the consumer interface always; the keyboard interface as
    long as no modifier call was redundant; every report sent is the current
    one; and any later change re-synchronises the host. *)
Theorem C10_consumer_partial : forall L is i f outs,
  fw_run L (is ++ [i]) fw_init = Some (f, outs) ->
  c_ready (i_bus i) = true -> c_accept (i_bus i) = true ->
  host_consumer (fw_host outs) = consumer (f_hid f).
Proof. exact fw_consumer_delivered. Qed.
Print Assumptions C10_consumer_partial.

Theorem C10_keyboard_partial : forall ops b,
  none_redundant ops -> k_ready b = true -> k_accept b = true ->
  host_mods (hhost (HTick b :: ops)) = modifiers (hstate (HTick b :: ops)) /\
  host_codes (hhost (HTick b :: ops)) = keycodes (hstate (HTick b :: ops)).
Proof. exact kb_delivered. Qed.
Print Assumptions C10_keyboard_partial.

Theorem C10_resync_partial : forall o ops b,
  keycodes (hstate (o :: ops)) <> keycodes (hstate ops) \/
  modifiers (hstate (o :: ops)) <> modifiers (hstate ops) ->
  k_ready b = true -> k_accept b = true ->
  host_mods (hhost (HTick b :: o :: ops)) = modifiers (hstate (HTick b :: o :: ops)) /\
  host_codes (hhost (HTick b :: o :: ops)) = keycodes (hstate (HTick b :: o :: ops)).
Proof. exact kb_resync. Qed.
Print Assumptions C10_resync_partial.

Theorem C10_sent_is_current : forall L is i f outs o s,
  fw_run L (is ++ [i]) fw_init = Some (f, outs ++ [o]) -> In s (o_sent o) ->
  s = SentKeyboard (modifiers (f_hid f)) (keycodes (f_hid f)) \/ s = SentConsumer (consumer (f_hid f)).
Proof. exact fw_sent. Qed.
Print Assumptions C10_sent_is_current.

Example C10_nonvacuous :
  let ops := [HRemove 0x070004; HAdd false 0x0700E1; HTick (mkBus false true true true); HAdd false 0x070005; HAdd false 0x070004] in
  none_redundant ops /\ host_codes (hhost (HTick all_ready :: ops)) = [0;5;0;0;0;0] /\ host_mods (hhost (HTick all_ready :: ops)) = 2.
Proof. vm_compute. repeat split. Qed.

(** C11 fails: with both space switches of the shipped layout held, releasing
    one removes the code although the other is still held. *)
Theorem C11_held_key_stays_refuted :
  default_layers false 56%nat = 0x07002C /\
  exists is js f outs f' outs',
    run_default is = Some (f, outs) /\ pressed (f_hid f) 0x2C = true /\
    Forall (fun i => nth 56 (i_samples i) true = false) (is ++ js) /\
    run_default (is ++ js) = Some (f', outs') /\ pressed (f_hid f') 0x2C = false.
Proof.
  split; [reflexivity|].
  exists (repeat (down [56%nat; 59%nat]) 8), (repeat (down [56%nat]) 8).
  vm_compute. eexists _, _, _, _. split; [reflexivity|]. split; [reflexivity|].
  split; [repeat constructor|]. split; reflexivity.
Qed.
Print Assumptions C11_held_key_stays_refuted.

(** It holds for a code that only one switch (and not the encoder) can produce. *)
Theorem C11_held_key_stays_partial : forall L newer older k c,
  0 < c < 256 -> pressed (o_hid (ostate L older)) c = true ->
  (forall k', key_has L k' c -> k' = k) ->
  (forall u s, In (OpEnc u s) (newer ++ older) -> ~ enc_has u c) ->
  (forall e, In (OpKey e) newer -> ek e = k -> es e = false) ->
  pressed (o_hid (ostate L (newer ++ older))) c = true.
Proof. exact unique_key_stays. Qed.
Print Assumptions C11_held_key_stays_partial.

Example C11_nonvacuous : 
  let L : layers_t := fun _ k => match k with 0%nat => 0x070004 | 1%nat => 0x070005 | _ => kNONE end in
  let older := [OpKey (mkKev 0 false false)] in
  let newer := [OpKey (mkKev 1 true false); OpTick all_ready; OpEnc ENCODER_CW_USAGE false; OpKey (mkKev 1 false false)] in
  pressed (o_hid (ostate L older)) 4 = true /\ (forall k', key_has L k' 4 -> k' = 0%nat) /\
  (forall u s, In (OpEnc u s) (newer ++ older) -> ~ enc_has u 4) /\
  (forall e, In (OpKey e) newer -> ek e = 0%nat -> es e = false).
Proof.
  cbv zeta. split; [reflexivity|]. split; [|split].
  - intros k' (_ & l & _ & H). destruct k' as [|[|k']]; [reflexivity|vm_compute in H; discriminate|vm_compute in H; discriminate].
  - cbn. intros u s [H|[H|[H|[H|[H|[]]]]]]; try discriminate. injection H as <- <-.
    intros (_ & _ & H). vm_compute in H. discriminate.
  - cbn. intros e [H|[H|[H|[H|[]]]]] He; try discriminate; injection H as <-; [discriminate|reflexivity].
Qed.

(** C12: while suspended, a press changes nothing in the report and requests a
    remote wakeup (unless it is Fn or kBOOT); nothing ever gets pressed during
    a suspended tick; releases are handled identically. *)
Theorem C12_suspended_press : forall L e s,
  esusp e = true -> es e = false ->
  snd (fst (apply_kev L e s)) = snd s /\
  (is_fn L (ek e) = false -> L (layer (fst s)) (ek e) <> kBOOT -> snd (apply_kev L e s) = [EffWakeup]).
Proof. exact suspended_event. Qed.
Print Assumptions C12_suspended_press.

Theorem C12_suspended_tick : forall L is i f0 outs f o c,
  fw_run L is fw_init = Some (f0, outs) -> fw_tick L i f0 = Some (f, o) -> i_susp i = true ->
  0 < c < 256 -> pressed (f_hid f) c = true -> pressed (f_hid f0) c = true.
Proof.
  intros L is i f0 outs f o c Hrun Ht Hs Hc.
  exact (tick_ignores_suspend L i f0 f o Hs Ht c Hc (fw_report_ok _ _ _ _ Hrun)).
Qed.
Print Assumptions C12_suspended_tick.

Theorem C12_release_unaffected : forall L k s b b', mreport L b k true s = mreport L b' k true s.
Proof. exact release_ignores_bus. Qed.
Print Assumptions C12_release_unaffected.

Example C12_nonvacuous :
  apply_kev default_layers (mkKev 14 false true) (mat_init, hid_init) = ((mat_init, hid_init), [EffWakeup]).
Proof. reflexivity. Qed.

(** C13: clockwise minus counterclockwise events equal the last detent rest
    position reached, for every walk of single quadrature steps (bounces are
    steps back and forth) from rest. *)
Theorem C13_encoder_counts_detents : forall ps,
  is_walk ps -> enc_net (map ab_at ps) = last_detent ps.
Proof. exact enc_counts_detents. Qed.
Print Assumptions C13_encoder_counts_detents.

(** ... and for arbitrary sample sequences, where samples with both signals
    changed are ignored. *)
Theorem C13_encoder_counts_tracked : forall samples,
  enc_net samples = last_detent (track samples) /\ is_walk (track samples).
Proof. intros samples. split; [exact (enc_counts_tracked samples)|exact (track_walk samples)]. Qed.
Print Assumptions C13_encoder_counts_tracked.

Example C13_nonvacuous :
  let ps := [7;8;7;8;7;6;5;4;3;4;3;2;3;2;1;0;1;0] in is_walk ps /\ enc_net (map ab_at ps) = 2.
Proof. split; [cbn; lia|reflexivity]. Qed.

(** C14: the table index is always below 28, for every sample sequence, and an
    event needs the complete quadrature sequence since the previous event. *)
Theorem C14_encoder_table_safe : forall samples a b,
  exists s, enc_state samples = Some s /\ 0 <= s <= 6 /\
            0 <= u8 (u8 (s * 2 + Z.b2z a) * 2 + Z.b2z b) < Z.of_nat (length enc_next).
Proof.
  intros samples a b. destruct (enc_state_range samples) as (s & E & Hs).
  destruct (enc_index samples a b) as (s' & E' & Hi). rewrite E in E'. injection E' as <-.
  exists s. auto.
Qed.
Print Assumptions C14_encoder_table_safe.

Theorem C14_event_needs_sequence : forall samples,
  (enc_event samples = ENCODER_CW_USAGE ->
   exists older, samples = (true,true) :: older /\
     subseq [(true,false);(false,false);(false,true)] (since_event older)) /\
  (enc_event samples = ENCODER_CCW_USAGE ->
   exists older, samples = (true,true) :: older /\
     subseq [(false,true);(false,false);(true,false)] (since_event older)).
Proof. exact event_sequence. Qed.
Print Assumptions C14_event_needs_sequence.

Example C14_nonvacuous :
  enc_event [(true,true);(true,false);(false,false);(false,true)] = ENCODER_CW_USAGE /\
  enc_event [(true,true);(false,true);(false,false);(true,false)] = ENCODER_CCW_USAGE.
Proof. split; reflexivity. Qed.

(** C15: an accepted event presses its usage, nothing changes for the next 30
    ticks whatever the encoder does, and the tick after that releases it (and
    may start the next pulse). *)
Theorem C15_encoder_pulse : forall susp u c h calls,
  u <> kNONE -> length calls = 30%nat ->
  let h0 := if c =? kNONE then h else hid_remove c h in
  let h1 := fst (hid_add susp u h0) in
  fst (ereport susp u c 0 h) = (u, 30, h1) /\
  (forall n, (n <= 30)%nat -> ereports (firstn n calls) (u, 30, h1) = (u, 30 - Z.of_nat n, h1)) /\
  (forall susp' u', fst (ereport susp' u' u 0 h1) =
     if u' =? kNONE then (kNONE, 0, hid_remove u h1)
     else (u', 30, fst (hid_add susp' u' (hid_remove u h1)))).
Proof. exact pulse. Qed.
Print Assumptions C15_encoder_pulse.

Theorem C15_idle : forall susp h, ereport susp kNONE kNONE 0 h = ((kNONE, 0, h), []).
Proof. exact idle_encoder. Qed.
Print Assumptions C15_idle.

Example C15_nonvacuous :
  let turn := map (fun ab => mkInput (repeat true KEYS) (fst ab) (snd ab) false all_ready [])
                [(false,true);(false,false);(true,false);(true,true)] in
  match run_default (turn ++ repeat idle 30), run_default (turn ++ repeat idle 31) with
  | Some (f, outs), Some (f', outs') =>
      pressed (f_hid f) 0x80 = true /\ report_empty (f_hid f') /\ host_codes (fw_host outs') = [0;0;0;0;0;0]
      /\ host_codes (fw_host outs) = [0x80;0;0;0;0;0]
  | _, _ => False
  end.
Proof. vm_compute. auto. Qed.

(** C16: n ticks after a changed request the LED shows bit ((n-1)/500 mod 8) of
    the pattern; repeating the current request changes nothing; the host's
    lock bits select the pattern; the pattern is always the last request. *)
Theorem C16_led_pattern : forall ops p n,
  Forall valid_pattern ops -> 0 <= p < 256 -> p <> last_pattern ops -> (1 <= n)%nat ->
  pin (nticks n (led_blink p (lstate ops))) = Z.testbit p (((Z.of_nat n - 1) / 500) mod 8).
Proof.
  intros ops p n Hv Hp Hne Hn. apply led_pattern; [exact Hp|exact (lstate_ok ops Hv)|rewrite lstate_pattern; exact Hne|exact Hn].
Qed.
Print Assumptions C16_led_pattern.

Theorem C16_led_repeat : forall ops, led_blink (last_pattern ops) (lstate ops) = lstate ops.
Proof. intros ops. unfold led_blink. rewrite lstate_pattern, Z.eqb_refl. reflexivity. Qed.
Print Assumptions C16_led_repeat.

Theorem C16_host_leds : forall e l,
  usb_callback e l = match led_request e with Some p => led_blink p l | None => l end.
Proof. exact usb_callback_led. Qed.
Print Assumptions C16_host_leds.

Example C16_nonvacuous :
  pin (nticks 501 (led_blink 0xFE (lstate [LTick; LBlink 1]))) = true /\
  pin (nticks 500 (led_blink 0xFE (lstate [LTick; LBlink 1]))) = false /\
  led_request (SetReport 0 0 2 [6]) = Some 0xFE.
Proof. vm_compute. auto. Qed.

(** C17: every served string descriptor starts with its length and type 3 and
    carries the text in UTF-16LE; other indices give NULL. *)
Theorem C17_string_descriptors : forall index ascii d,
  length ascii = 16%nat -> (forall x, In x ascii -> 0 <= x < 256) ->
  string_cb index ascii = Some d -> descriptor_ok d (text_of index ascii).
Proof. exact string_ok. Qed.
Print Assumptions C17_string_descriptors.

Theorem C17_null : forall index ascii, string_cb index ascii = None <-> ~ (0 <= index <= 3).
Proof. exact string_null. Qed.
Print Assumptions C17_null.

Example C17_nonvacuous : exists d, string_cb 3 (repeat 69 16) = Some d /\ length d = 34%nat.
Proof. eexists. split; reflexivity. Qed.

(** C18: the main loop never faults; every report in any state is well formed;
    a switch held for 8 ticks is reported; and its code is in the report sent
    in that tick. *)
Theorem C18_no_fault : forall L is,
  exists f outs, fw_run L is fw_init = Some (f, outs) /\ length outs = length is /\ report_ok (f_hid f).
Proof.
  intros L is. destruct (fw_total L is) as (f & outs & H & Hr). exists f, outs.
  split; [exact H|]. split; [apply (rel_len _ _ _ _ Hr)|exact (fw_report_ok _ _ _ _ H)].
Qed.
Print Assumptions C18_no_fault.

Theorem C18_switch_streams : forall L is f outs k,
  fw_run L is fw_init = Some (f, outs) -> Forall wf_input is -> (k < KEYS)%nat ->
  map (switch_reports k) outs = map option_list (deb_outs 8 (column k is)).
Proof. exact switch_stream. Qed.
Print Assumptions C18_switch_streams.

Theorem C18_noticed : forall L is js f outs k b,
  Forall wf_input (is ++ js) -> (k < KEYS)%nat ->
  reported_level (deb_outs 8 (column k is)) = negb b ->
  Forall (fun i => nth k (i_samples i) true = b) js -> length js = 8%nat ->
  fw_run L (is ++ js) fw_init = Some (f, outs) ->
  exists n o, (length is <= n < length is + 8)%nat /\ nth_error outs n = Some o /\
              switch_reports k o = [b].
Proof. exact fw_noticed. Qed.
Print Assumptions C18_noticed.

Theorem C18_press_sent : forall L is i f0 outs0 f o k c,
  fw_run L is fw_init = Some (f0, outs0) -> fw_tick L i f0 = Some (f, o) ->
  o_reports o = [(k, false)] -> i_susp i = false -> is_fn L k = false ->
  page (L (layer (f_mat f0)) k) = PAGE_KEYBOARD -> code8 (L (layer (f_mat f0)) k) = c -> 0 < c ->
  pressed (f_hid f0) c = false -> is_modifier c = true \/ has_room (f_hid f0) = true ->
  ~ enc_has (e_current (f_enc f0)) c ->
  k_ready (i_bus i) = true -> k_accept (i_bus i) = true ->
  pressed (f_hid f) c = true /\ exists s, In s (o_sent o) /\ sent_has s c.
Proof. exact fw_press_sent. Qed.
Print Assumptions C18_press_sent.

Example C18_nonvacuous :
  match run_default (repeat (down [14%nat]) 8) with
  | Some (f, outs) => map o_sent (skipn 7 outs) = [[SentKeyboard 0 [0x14;0;0;0;0;0]]] /\
                      map o_reports (skipn 7 outs) = [[(14%nat, false)]] /\ pressed (f_hid f) 0x14 = true
  | None => False
  end.
Proof. vm_compute. auto. Qed.
