(** Specification vocabulary for the firmware properties.  Nothing here
    mentions state bytes, counters or tables of the implementation. *)
From Coq Require Import List ZArith Bool.
From Verif Require Import FwModel.
Import ListNotations.
Open Scope Z_scope.

(** ** Debouncing: samples in, optional report out, one output per sample *)

(* drive debounce over a list of samples, collecting the report (if any) of
   each sample *)
Fixpoint deb_run (T st : Z) (xs : list bool) : Z * list (option bool) :=
  match xs with
  | [] => (st, [])
  | x :: r => let '(st1, o) := debounce T st x in
              let '(st2, os) := deb_run T st1 r in (st2, o :: os)
  end.

(* outputs from power-up (state byte 0, matrix.c:81) *)
Definition deb_outs (T : Z) (xs : list bool) : list (option bool) := snd (deb_run T 0 xs).

(* what is reported for sample x that follows the history xs *)
Definition deb_next (T : Z) (xs : list bool) (x : bool) : option bool :=
  last (deb_outs T (xs ++ [x])) None.

(* the level reported last; a switch counts as released (true) at power-up *)
Definition reported_level (outs : list (option bool)) : bool :=
  fold_left (fun acc o => match o with Some b => b | None => acc end) outs true.

(* the samples that arrived after the last report *)
Definition since_report (xs : list bool) (outs : list (option bool)) : list bool :=
  fold_left (fun acc p => match snd p with Some _ => [] | None => acc ++ [fst p] end)
            (combine xs outs) [].

(* how many more samples of level b than of the other level a window has *)
Fixpoint lead (b : bool) (w : list bool) : Z :=
  match w with
  | [] => 0
  | x :: r => (if Bool.eqb x b then 1 else -1) + lead b r
  end.

Definition count_level (b : bool) (w : list bool) : Z :=
  Z.of_nat (length (filter (Bool.eqb b) w)).

(* the sequence of reports *)
Definition somes {A} (l : list (option A)) : list A :=
  flat_map (fun o => match o with Some a => [a] | None => [] end) l.

Fixpoint alternates (expected : bool) (l : list bool) : Prop :=
  match l with
  | [] => True
  | x :: r => x = expected /\ alternates (negb expected) r
  end.

(** ** The scan *)

(* run the scan over a sequence of ticks; each tick is the list of samples
   in scan order.  Output: the report calls of each tick, in order. *)
Fixpoint scan_run (T : Z) (deb : list Z) (rows : list (list bool))
  : list Z * list (list (nat * bool)) :=
  match rows with
  | [] => (deb, [])
  | row :: r => let '(deb1, evs) := scan T 0 deb row in
                let '(deb2, evss) := scan_run T deb1 r in (deb2, evs :: evss)
  end.

Definition option_list {A} (o : option A) : list A :=
  match o with Some a => [a] | None => [] end.

(** ** Key events and layers.  Histories are lists with the NEWEST event first. *)

(* a debounced event: key, level (true = released), is the bus suspended *)
Record kev := mkKev { ek : nat; es : bool; esusp : bool }.

Definition apply_kev (L : layers_t) (e : kev) (s : mat * hid) : (mat * hid) * list eff :=
  mreport L (esusp e) (ek e) (es e) s.

(* firmware state after a history, from power-up *)
Fixpoint kstate (L : layers_t) (hist : list kev) : mat * hid :=
  match hist with
  | [] => (mat_init, hid_init)
  | e :: older => fst (apply_kev L e (kstate L older))
  end.

(* the layer that should be active after a history, and how many Fn presses
   happened since the last press of a key that produces a code:
   - Fn held down: the Fn layer;
   - Fn released: locked on the Fn layer iff it was the 2nd (5th, 8th, ...)
     consecutive tap, otherwise base layer;
   - other keys do not change the layer. *)
Fixpoint layer_spec (L : layers_t) (hist : list kev) : bool :=
  match hist with
  | [] => false
  | e :: older =>
      if is_fn L (ek e) then
        if es e then Nat.eqb (Nat.modulo (fn_taps_spec L older) 3) 2 else true
      else layer_spec L older
  end
with fn_taps_spec (L : layers_t) (hist : list kev) : nat :=
  match hist with
  | [] => 0%nat
  | e :: older =>
      if es e then fn_taps_spec L older
      else if is_fn L (ek e) then S (fn_taps_spec L older)
      else if L (layer_spec L older) (ek e) =? kBOOT then fn_taps_spec L older
      else 0%nat
  end.

(* consecutive presses of kBOOT not interrupted by a press of a code key *)
Fixpoint boot_taps_spec (L : layers_t) (hist : list kev) : nat :=
  match hist with
  | [] => 0%nat
  | e :: older =>
      if es e || is_fn L (ek e) then boot_taps_spec L older
      else if L (layer_spec L older) (ek e) =? kBOOT then S (boot_taps_spec L older)
      else 0%nat
  end.

(* the Fn events of a history, oldest first, strictly alternate press/release:
   true of a single Fn switch by the debounce theorem *)
Definition fn_alternates (L : layers_t) (hist : list kev) : Prop :=
  alternates false (rev (map es (filter (fun e => is_fn L (ek e)) hist))).

(** ** Observing the HID report *)

(* is HID keyboard code c (1..255) in the report *)
Definition pressed (h : hid) (c : Z) : bool :=
  if is_modifier c then Z.testbit (modifiers h) (c - 0xE0)
  else negb (c =? 0) && existsb (Z.eqb c) (keycodes h).

(* is there a free slot for an ordinary code *)
Definition has_room (h : hid) : bool := existsb (Z.eqb 0) (keycodes h).

(* a well-formed report *)
Definition report_ok (h : hid) : Prop :=
  length (keycodes h) = 6%nat /\
  (forall c, In c (keycodes h) -> 0 <= c < 256 /\ is_modifier c = false) /\
  NoDup (filter (fun c => negb (c =? 0)) (keycodes h)) /\
  0 <= modifiers h < 256 /\
  0 <= consumer h < 65536.

Definition report_empty (h : hid) : Prop :=
  keycodes h = [0;0;0;0;0;0] /\ modifiers h = 0 /\ consumer h = 0.

(* calls to hid.c *)
Inductive hop := HAdd (susp : bool) (usage : Z) | HRemove (usage : Z) | HTick (b : bus).
Definition apply_hop (o : hop) (h : hid) : hid * list sent :=
  match o with
  | HAdd s u => (fst (hid_add s u h), [])
  | HRemove u => (hid_remove u h, [])
  | HTick b => hid_tick b h
  end.

(* newest first *)
Fixpoint hstate (ops : list hop) : hid :=
  match ops with
  | [] => hid_init
  | o :: older => fst (apply_hop o (hstate older))
  end.

(* what the host has been told: the last accepted report of each interface *)
Record host := mkHost { host_mods : Z; host_codes : list Z; host_consumer : Z }.
Definition host_init : host := mkHost 0 [0;0;0;0;0;0] 0.
Definition host_see (s : sent) (v : host) : host :=
  match s with
  | SentKeyboard m l => mkHost m l (host_consumer v)
  | SentConsumer c => mkHost (host_mods v) (host_codes v) c
  end.
Fixpoint hhost (ops : list hop) : host :=
  match ops with
  | [] => host_init
  | o :: older => fold_left (fun v s => host_see s v) (snd (apply_hop o (hstate older))) (hhost older)
  end.

(** ** Everything that touches the report: keys, encoder, sending *)

Inductive op := OpKey (e : kev) | OpEnc (usage : Z) (susp : bool) | OpTick (b : bus).

Record ost := mkOst { o_mat : mat; o_hid : hid; o_cur : Z; o_tmo : Z }.
Definition ost_init : ost := mkOst mat_init hid_init kNONE 0.

Definition apply_op (L : layers_t) (o : op) (s : ost) : ost :=
  match o with
  | OpKey e => let '(m, h) := fst (apply_kev L e (o_mat s, o_hid s)) in
               mkOst m h (o_cur s) (o_tmo s)
  | OpEnc u susp => let '(c, t, h) := fst (ereport susp u (o_cur s) (o_tmo s) (o_hid s)) in
                    mkOst (o_mat s) h c t
  | OpTick b => mkOst (o_mat s) (fst (hid_tick b (o_hid s))) (o_cur s) (o_tmo s)
  end.

Fixpoint ostate (L : layers_t) (ops : list op) : ost :=
  match ops with
  | [] => ost_init
  | o :: older => apply_op L o (ostate L older)
  end.

(* is key k held down after a history (newest first) *)
Fixpoint held (ops : list op) (k : nat) : bool :=
  match ops with
  | [] => false
  | OpKey e :: older => if Nat.eqb (ek e) k then negb (es e) else held older k
  | _ :: older => held older k
  end.

(** ** Rotary encoder.  Sample histories are newest first. *)

Fixpoint enc_state (samples : list (bool * bool)) : option Z :=
  match samples with
  | [] => Some (e_state enc_init)
  | (a, b) :: older => match enc_state older with
                       | None => None
                       | Some s => fst (enc_step s a b)
                       end
  end.

(* the rotation event caused by the newest sample *)
Definition enc_event (samples : list (bool * bool)) : Z :=
  match samples with
  | [] => kNONE
  | (a, b) :: older => match enc_state older with
                       | None => kNONE
                       | Some s => snd (enc_step s a b)
                       end
  end.

Definition event_value (u : Z) : Z :=
  if u =? ENCODER_CW_USAGE then 1 else if u =? ENCODER_CCW_USAGE then -1 else 0.

(* clockwise events minus counterclockwise events *)
Fixpoint enc_net (samples : list (bool * bool)) : Z :=
  match samples with
  | [] => 0
  | x :: older => event_value (enc_event samples) + enc_net older
  end.

(* the quadrature signal at shaft position p (encoder.c:33-39): one detent is
   four positions, clockwise is increasing p *)
Definition ab_at (p : Z) : bool * bool :=
  if p mod 4 =? 0 then (true, true)
  else if p mod 4 =? 1 then (false, true)
  else if p mod 4 =? 2 then (false, false)
  else (true, false).

(* a walk: newest position first, each step moves at most one position,
   starting from rest at position 0 *)
Fixpoint is_walk (ps : list Z) : Prop :=
  match ps with
  | [] => True
  | p :: older => (Z.abs (p - hd 0 older) <= 1) /\ is_walk older
  end.

(* the last detent rest position (multiple of 4) visited, divided by 4 *)
Fixpoint last_detent (ps : list Z) : Z :=
  match ps with
  | [] => 0
  | p :: older => if p mod 4 =? 0 then p / 4 else last_detent older
  end.

(* the shaft position an observer infers from arbitrary samples: a sample that
   is one Gray-code step away moves it, a sample with both signals changed
   cannot be attributed and is ignored; newest first *)
Definition ab_eqb (x y : bool * bool) : bool :=
  Bool.eqb (fst x) (fst y) && Bool.eqb (snd x) (snd y).
Fixpoint track (samples : list (bool * bool)) : list Z :=
  match samples with
  | [] => []
  | x :: older =>
      let p := hd 0 (track older) in
      (if ab_eqb x (ab_at (p + 1)) then p + 1
       else if ab_eqb x (ab_at (p - 1)) then p - 1 else p) :: track older
  end.

(* samples since the last event, newest first *)
Fixpoint since_event (samples : list (bool * bool)) : list (bool * bool) :=
  match samples with
  | [] => []
  | x :: older => if enc_event samples =? kNONE then x :: since_event older else []
  end.

Inductive subseq {A} : list A -> list A -> Prop :=
| sub_nil : forall l, subseq [] l
| sub_take : forall x s l, subseq s l -> subseq (x :: s) (x :: l)
| sub_skip : forall x s l, subseq s l -> subseq s (x :: l).

(* consecutive calls of the encoder's report function *)
Fixpoint ereports (calls : list (bool * Z)) (s : Z * Z * hid) : Z * Z * hid :=
  match calls with
  | [] => s
  | (susp, u) :: r => let '(c, t, h) := s in ereports r (fst (ereport susp u c t h))
  end.

(** ** LED *)

Inductive lop := LTick | LBlink (p : Z).
Definition apply_lop (o : lop) (l : led) : led :=
  match o with LTick => led_tick l | LBlink p => led_blink p l end.
(* newest first *)
Fixpoint lstate (ops : list lop) : led :=
  match ops with [] => led_init | o :: older => apply_lop o (lstate older) end.
Definition valid_pattern (o : lop) : Prop :=
  match o with LTick => True | LBlink p => 0 <= p < 256 end.

(** ** Which codes a switch or the encoder can stand for *)

(* keyboard code c of key k on either layer *)
Definition key_has (L : layers_t) (k : nat) (c : Z) : Prop :=
  is_fn L k = false /\ exists l, page (L l k) = PAGE_KEYBOARD /\ code8 (L l k) = c.
(* consumer code c of key k on either layer *)
Definition key_has_consumer (L : layers_t) (k : nat) (c : Z) : Prop :=
  is_fn L k = false /\ exists l, page (L l k) = PAGE_CONSUMER /\ code16 (L l k) = c.
(* the code of the running encoder pulse *)
Definition enc_has (cur : Z) (c : Z) : Prop :=
  cur <> kNONE /\ page cur = PAGE_KEYBOARD /\ code8 cur = c.
Definition enc_has_consumer (cur : Z) (c : Z) : Prop :=
  cur <> kNONE /\ page cur = PAGE_CONSUMER /\ code16 cur = c.


(** ** The whole main loop *)

(* the host's view after the main loop produced the outputs outs *)
Definition fw_host (outs : list output) : host :=
  fold_left (fun v s => host_see s v) (flat_map o_sent outs) host_init.

(* one sample per switch *)
Definition wf_input (i : input) : Prop := length (i_samples i) = KEYS.

(* the samples of switch k over time *)
Definition column (k : nat) (is : list input) : list bool :=
  map (fun i => nth k (i_samples i) true) is.

(* nobody touches the keyboard *)
Definition idle_input (i : input) : Prop :=
  i_samples i = repeat true KEYS /\ i_a i = true /\ i_b i = true.

(* the reports of switch k in one tick *)
Definition switch_reports (k : nat) (o : output) : list bool :=
  map snd (filter (fun e => Nat.eqb (fst e) k) (o_reports o)).

(* the debounced events of one tick, oldest first *)
Definition tick_keys (p : input * output) : list kev :=
  map (fun e => mkKev (fst e) (snd e) (i_susp (fst p))) (o_reports (snd p)).

(* all debounced events, newest first *)
Definition fw_keys (is : list input) (outs : list output) : list kev :=
  rev (flat_map tick_keys (combine is outs)).

(* everything that touched the report, newest first *)
Definition tick_ops (p : input * output) : list op :=
  map OpKey (tick_keys p) ++ [OpEnc (o_usage (snd p)) (i_susp (fst p)); OpTick (i_bus (fst p))].
Definition fw_ops (is : list input) (outs : list output) : list op :=
  rev (flat_map tick_ops (combine is outs)).

(* does a report handed to the host contain keyboard code c *)
Definition sent_has (s : sent) (c : Z) : Prop :=
  match s with
  | SentKeyboard m l => pressed (mkHid l m 0 false false) c = true
  | SentConsumer _ => False
  end.

(* the table has exactly one Fn switch *)
Definition single_fn (L : layers_t) (kf : nat) : Prop :=
  (kf < KEYS)%nat /\ forall k, (k < KEYS)%nat -> is_fn L k = Nat.eqb k kf.

(** ** Delivery of keyboard reports *)

(* adding a pressed modifier, or removing one that is not pressed *)
Definition redundant (o : hop) (h : hid) : bool :=
  match o with
  | HAdd false u => (page u =? PAGE_KEYBOARD) && is_modifier (code8 u) && pressed h (code8 u)
  | HRemove u => (page u =? PAGE_KEYBOARD) && is_modifier (code8 u) && negb (pressed h (code8 u))
  | _ => false
  end.

Fixpoint none_redundant (ops : list hop) : Prop :=
  match ops with
  | [] => True
  | o :: older => redundant o (hstate older) = false /\ none_redundant older
  end.

(** ** Concrete inputs *)

Definition all_ready : bus := mkBus true true true true.
Definition idle : input := mkInput (repeat true KEYS) true true false all_ready [].
(* switches ks are down *)
Definition down (ks : list nat) : input :=
  mkInput (map (fun k => negb (existsb (Nat.eqb k) ks)) (seq 0 KEYS)) true true false all_ready [].

Definition run_default (is : list input) : option (fw * list output) := fw_run default_layers is fw_init.

(** ** LED requests of the host: the pattern for each callback *)
Definition led_request (e : usb_event) : option Z :=
  match e with
  | Suspend => Some 0
  | SetReport itf id type [b0] =>
      if (itf =? 0) && (id =? 0) && (type =? 2) then
        Some (match Z.testbit b0 0, Z.testbit b0 1 with
              | false, false => 1      (* neither: short blink *)
              | true, false => 0       (* num lock: off *)
              | false, true => 0xFE    (* caps lock: nearly always on *)
              | true, true => 0xFF     (* both: on *)
              end)
      else None
  | _ => None
  end.

(** ** String descriptors: [d] are the bytes, [text] the UTF-16 code units *)
Definition descriptor_ok (d : list Z) (text : list Z) : Prop :=
  nth 0 d 0 = Z.of_nat (length d) /\ nth 1 d 0 = 3 /\
  length d = (2 + 2 * length text)%nat /\
  (forall i, (i < length text)%nat ->
     nth (2 + 2 * i) d 0 + 256 * nth (3 + 2 * i) d 0 = nth i text 0).

Definition text_of (index : Z) (ascii : list Z) : list Z :=
  match index with 0 => [0x0409] | 1 => manufactString | 2 => productString | _ => ascii end.

(* n ticks without a new request *)
Definition nticks (n : nat) (l : led) : led := Nat.iter n led_tick l.

(* the debounce step computed with unbounded integers *)
Definition debounce_nowrap (T : Z) (state : Z) (signal : bool) : Z * option bool :=
  let state1 :=
    if Z.b2z signal =? state mod 2 then state + 2
    else if 2 <=? state then state - 2
    else state in
  if T * 2 <=? state1 then (Z.b2z (negb signal), Some signal)
  else (state1, None).

(* the pattern requested last, 0 (off) at power-up; newest operation first *)
Fixpoint last_pattern (ops : list lop) : Z :=
  match ops with [] => 0 | LTick :: older => last_pattern older | LBlink p :: _ => p end.
