(** Model of the keyboard firmware, /repo/firmware/chrumm.
    One Gallina definition per C function.  C static variables are record
    fields, calls into TinyUSB and the GPIO pins are inputs. *)
From Coq Require Import List ZArith Bool Lia.
Import ListNotations.
Open Scope Z_scope.

(** ** config.h / usage.h constants *)

(* config.h:9-10 *)
Definition MATRIX_ROWS : nat := 5%nat.
Definition MATRIX_COLS : nat := 13%nat.
Definition KEYS : nat := 65%nat.
(* config.h:49-54 *)
Definition MATRIX_DEBOUNCE_TICKS : Z := 8.
Definition ENCODER_KEYPRESS_TICKS : Z := 30.
Definition LED_BLINK_TICKS : Z := 500.
Definition FN_KEY_TAPS : Z := 2.
Definition BOOT_KEY_TAPS : Z := 3.

(* usage.h:7,13,165 (special codes) *)
Definition kBOOT  : Z := 0x000000.
Definition kNONE  : Z := 0x070000.
Definition cFN    : Z := 0x0C0097.
(* config.h:38-39 with usage.h kVOLUP, kVOLDN *)
Definition ENCODER_CW_USAGE  : Z := 0x070080.
Definition ENCODER_CCW_USAGE : Z := 0x070081.

(* TinyUSB hid.h: HID_USAGE_PAGE_KEYBOARD = 0x07, HID_USAGE_PAGE_CONSUMER = 0x0C *)
Definition PAGE_KEYBOARD : Z := 0x07.
Definition PAGE_CONSUMER : Z := 0x0C.

(* config.h:24-29 MATRIX_BASE_LAYER, names resolved with usage.h *)
Definition base_layer : list Z := [
  0x070029;0x07001E;0x07001F;0x070020;0x070021;0x070022;0x070023;0x070024;0x070025;0x070026;0x070027;0x07002D;0x07002E;
  0x07002B;0x070014;0x07001A;0x070008;0x070015;0x070017;0x07001C;0x070018;0x07000C;0x070012;0x070013;0x07002F;0x070030;
  0x0C0097;0x070004;0x070016;0x070007;0x070009;0x07000A;0x07000B;0x07000D;0x07000E;0x07000F;0x070033;0x070034;0x070031;
  0x0700E1;0x07001D;0x07001B;0x070006;0x070019;0x070005;0x070011;0x070010;0x070036;0x070037;0x070038;0x070052;0x0700E5;
  0x0700E0;0x070000;0x0700E3;0x0700E2;0x07002C;0x07002A;0x070028;0x07002C;0x0700E6;0x07004C;0x070050;0x070051;0x07004F].

(* config.h:31-36 MATRIX_FN_LAYER *)
Definition fn_layer : list Z := [
  0x070035;0x070040;0x070041;0x070042;0x070043;0x070044;0x070045;0x07005F;0x070060;0x070061;0x070056;0x07002A;0x070029;
  0x070039;0x07003A;0x07003B;0x07003C;0x07003D;0x07003E;0x07003F;0x07005C;0x07005D;0x07005E;0x070057;0x0700B6;0x0700B7;
  0x0C0097;0x0C00B0;0x0C00B6;0x0C00B1;0x0C00B5;0x0C00B7;0x070000;0x070059;0x07005A;0x07005B;0x070054;0x070000;0x070000;
  0x0700E1;0x000000;0x070000;0x0C0192;0x070000;0x07007F;0x070053;0x070062;0x070063;0x070058;0x070055;0x07004B;0x0700E5;
  0x0700E0;0x070000;0x0700E3;0x0700E2;0x07002C;0x07002A;0x070028;0x07002C;0x0700E6;0x070049;0x07004A;0x07004E;0x07004D].

(** A layer table: layer number (false = base, true = fn) and key to usage.
    matrix.c:112-114.  The theorems hold for every table. *)
Definition layers_t := bool -> nat -> Z.

(* matrix.c:112-114 with the tables of config.h; keys are always < 65 *)
Definition default_layers : layers_t := fun layer key =>
  nth key (if layer then fn_layer else base_layer) kNONE.

(** ** hid.c *)

(* hid.c:7-12, the static variables *)
Record hid := mkHid {
  keycodes : list Z;       (* uint8_t[6] *)
  modifiers : Z;           (* uint8_t *)
  consumer : Z;            (* uint16_t *)
  kstale : bool;           (* isKeyboardStale *)
  cstale : bool            (* isConsumerStale *)
}.

(* hid.c:7-12 initial values *)
Definition hid_init : hid := mkHid [0;0;0;0;0;0] 0 0 false false.

(* hid.c:57 and hid.c:84: codes 0xE0..0xE7 *)
Definition is_modifier (code : Z) : bool := (0xE0 <=? code) && (code <=? 0xE7).

(* hid.c:69-75 second loop of addKeycode: fill the first zero slot *)
Fixpoint fill_slot (code : Z) (l : list Z) : option (list Z) :=
  match l with
  | [] => None
  | x :: r => if x =? 0 then Some (code :: r)
              else match fill_slot code r with
                   | Some r' => Some (x :: r')
                   | None => None
                   end
  end.

(* hid.c:55-76 addKeycode *)
Definition addKeycode (code : Z) (h : hid) : hid :=
  if is_modifier code then
    let m := Z.lor (modifiers h) (Z.shiftl 1 (code - 0xE0)) in
    mkHid (keycodes h) m (consumer h) (negb (m =? modifiers h)) (cstale h)
  else if existsb (Z.eqb code) (keycodes h) then h
  else match fill_slot code (keycodes h) with
       | Some l => mkHid l (modifiers h) (consumer h) true (cstale h)
       | None => h
       end.

(* hid.c:91-97 loop of removeKeycode: clear the first matching slot *)
Fixpoint clear_slot (code : Z) (l : list Z) : option (list Z) :=
  match l with
  | [] => None
  | x :: r => if x =? code then Some (0 :: r)
              else match clear_slot code r with
                   | Some r' => Some (x :: r')
                   | None => None
                   end
  end.

(* hid.c:79-98 removeKeycode; the uint8_t complement is taken on 8 bits *)
Definition removeKeycode (code : Z) (h : hid) : hid :=
  if code =? 0 then h
  else if is_modifier code then
    let m := Z.land (modifiers h) (255 - Z.shiftl 1 (code - 0xE0)) in
    mkHid (keycodes h) m (consumer h) (negb (m =? modifiers h)) (cstale h)
  else match clear_slot code (keycodes h) with
       | Some l => mkHid l (modifiers h) (consumer h) true (cstale h)
       | None => h
       end.

(* hid.c:101-108 addConsumer *)
Definition addConsumer (code : Z) (h : hid) : hid :=
  if consumer h =? code then h
  else mkHid (keycodes h) (modifiers h) code (kstale h) true.

(* usage >> 16 and the implicit conversions to uint8_t / uint16_t, hid.c:39-42 *)
Definition page (usage : Z) : Z := usage / 65536.
Definition code8 (usage : Z) : Z := usage mod 256.
Definition code16 (usage : Z) : Z := usage mod 65536.

(* hid.c:32-43 hid_add.  [susp] is the value of tud_suspended().
   The second component says whether tud_remote_wakeup() was called. *)
Definition hid_add (susp : bool) (usage : Z) (h : hid) : hid * bool :=
  if susp then (h, true)
  else if page usage =? PAGE_KEYBOARD then (addKeycode (code8 usage) h, false)
  else if page usage =? PAGE_CONSUMER then (addConsumer (code16 usage) h, false)
  else (h, false).

(* hid.c:46-52 hid_remove *)
Definition hid_remove (usage : Z) (h : hid) : hid :=
  if page usage =? PAGE_KEYBOARD then removeKeycode (code8 usage) h
  else if page usage =? PAGE_CONSUMER then addConsumer 0 h
  else h.

(* What TinyUSB answers to tud_hid_n_ready and to the report call. *)
Record bus := mkBus { k_ready : bool; k_accept : bool; c_ready : bool; c_accept : bool }.

(* A report handed over to TinyUSB successfully. *)
Inductive sent := SentKeyboard (m : Z) (codes : list Z) | SentConsumer (code : Z).

(* hid.c:22-29 hid_tick.  Reports that tud_hid_n_*report accepted are output. *)
Definition hid_tick (b : bus) (h : hid) : hid * list sent :=
  let '(h1, o1) :=
    if kstale h && k_ready b then
      (mkHid (keycodes h) (modifiers h) (consumer h) (negb (k_accept b)) (cstale h),
       if k_accept b then [SentKeyboard (modifiers h) (keycodes h)] else [])
    else (h, []) in
  let '(h2, o2) :=
    if cstale h1 && c_ready b then
      (mkHid (keycodes h1) (modifiers h1) (consumer h1) (kstale h1) (negb (c_accept b)),
       if c_accept b then [SentConsumer (consumer h1)] else [])
    else (h1, []) in
  (h2, o1 ++ o2).

(** ** matrix.c *)

(* matrix.c:63-107 debounce, for a tick count T (MATRIX_DEBOUNCE_TICKS).
   [state] is the uint8_t; [signal] the sampled column level (true = released,
   because columns are pulled up).  Result: new byte, and Some signal when
   report(key, signal) is called.  All uint8_t stores truncate modulo 256. *)
Definition u8 (x : Z) : Z := x mod 256.

Definition debounce (T : Z) (state : Z) (signal : bool) : Z * option bool :=
  let state1 :=
    if Z.b2z signal =? state mod 2 then u8 (state + 2)
    else if 2 <=? state then u8 (state - 2)
    else state in
  if T * 2 <=? state1 then (Z.b2z (negb signal), Some signal)
  else (state1, None).

(* matrix.c:116-118 static variables of report.  uint counters are modelled
   unbounded; FwMatrixProofs shows that they stay tiny. *)
Record mat := mkMat { layer : bool; fnTaps : Z; bootTaps : Z }.
Definition mat_init : mat := mkMat false 0 0.

(* Calls with an effect outside the program state. *)
Inductive eff := EffWakeup | EffBoot.

(* matrix.c:123: is this switch an Fn key in one of the layers *)
Definition is_fn (L : layers_t) (key : nat) : bool :=
  (L false key =? cFN) || (L true key =? cFN).

(* matrix.c:110-148 report.  reset_usb_boot does not return; the model
   emits EffBoot and goes on, which only adds behaviours after it. *)
Definition mreport (L : layers_t) (susp : bool) (key : nat) (signal : bool)
           (s : mat * hid) : (mat * hid) * list eff :=
  let '(m, h) := s in
  let active := L (layer m) key in
  let inactive := L (negb (layer m)) key in
  if (active =? cFN) || (inactive =? cFN) then
    if signal then
      ((mkMat (if fnTaps m =? FN_KEY_TAPS then layer m else false)
              (if FN_KEY_TAPS <? fnTaps m then 0 else fnTaps m)
              (bootTaps m), h), [])
    else ((mkMat true (fnTaps m + 1) (bootTaps m), h), [])
  else if signal then
    ((m, hid_remove inactive (hid_remove active h)), [])
  else if active =? kBOOT then
    let n := bootTaps m + 1 in
    ((mkMat (layer m) (fnTaps m) n, h), if BOOT_KEY_TAPS <=? n then [EffBoot] else [])
  else
    let '(h', w) := hid_add susp active h in
    ((mkMat (layer m) 0 0, h'), if w then [EffWakeup] else []).

(* matrix.c:41-60 matrix_tick, together with the array of matrix.c:81.
   [samples] lists the column levels in scan order (row-major, key = r*COLS+c),
   [deb] the state bytes.  Returns the new bytes and the report calls in order. *)
Fixpoint scan (T : Z) (key : nat) (deb : list Z) (samples : list bool)
  : list Z * list (nat * bool) :=
  match deb, samples with
  | st :: deb', sg :: samples' =>
      let '(st', ev) := debounce T st sg in
      let '(r, evs) := scan T (S key) deb' samples' in
      (st' :: r, match ev with Some b => (key, b) :: evs | None => evs end)
  | _, _ => (deb, [])
  end.

(* matrix.c:102: each report call runs report *)
Fixpoint mreports (L : layers_t) (susp : bool) (evs : list (nat * bool))
         (s : mat * hid) : (mat * hid) * list eff :=
  match evs with
  | [] => (s, [])
  | (k, b) :: r => let '(s1, e1) := mreport L susp k b s in
                   let '(s2, e2) := mreports L susp r s1 in
                   (s2, e1 ++ e2)
  end.

(** ** encoder.c *)

(* encoder.c:49-56, the table next[28] *)
Definition enc_next : list Z := [
  0;1;2;0;   0;1;1;3;   0;2;2;3;   3;5;2;3;   4;5;6;4;   4;5;5;3;   4;6;6;3].

(* encoder.c:58-68: state<<2 | A<<1 | B in uint8_t, event, next[state].
   None models reading next[] out of bounds. *)
Definition enc_step (state : Z) (a b : bool) : option Z * Z :=
  let s2 := u8 (u8 (state * 2 + Z.b2z a) * 2 + Z.b2z b) in
  let usage := if s2 =? 7 then ENCODER_CCW_USAGE
               else if s2 =? 27 then ENCODER_CW_USAGE else kNONE in
  (nth_error enc_next (Z.to_nat s2), usage).

(* encoder.c:58 initial state; encoder.c:74-75 static variables of report *)
Record enc := mkEnc { e_state : Z; e_current : Z; e_timeout : Z }.
Definition enc_init : enc := mkEnc 3 kNONE 0.

(* encoder.c:72-90 report *)
Definition ereport (susp : bool) (usage : Z) (cur timeout : Z) (h : hid)
  : (Z * Z * hid) * list eff :=
  if negb (timeout =? 0) then ((cur, timeout - 1, h), [])
  else
    let '(cur1, h1) := if negb (cur =? kNONE) then (kNONE, hid_remove cur h) else (cur, h) in
    if negb (usage =? kNONE) then
      let '(h2, w) := hid_add susp usage h1 in
      ((usage, ENCODER_KEYPRESS_TICKS, h2), if w then [EffWakeup] else [])
    else ((cur1, timeout, h1), []).

(** ** led.c *)

(* led.c:6-8 and 20, plus the pin level *)
Record led := mkLed { pattern : Z; index : Z; ticks : Z; blink : bool; pin : bool }.
(* led.c:6-20 initial values; gpio_init drives the pin low *)
Definition led_init : led := mkLed 0 0 LED_BLINK_TICKS false false.

(* led.c:18-32 led_tick *)
Definition led_tick (l : led) : led :=
  if (pattern l =? 0) && negb (blink l) then l
  else
    let t := ticks l + 1 in
    if t <? LED_BLINK_TICKS then mkLed (pattern l) (index l) t (blink l) (pin l)
    else
      let i := Z.land (index l + 1) 7 in
      let b := negb (Z.land (pattern l) (Z.shiftl 1 i) =? 0) in
      mkLed (pattern l) i 0 b b.

(* led.c:35-43 led_blink *)
Definition led_blink (p : Z) (l : led) : led :=
  if p =? pattern l then l
  else mkLed p 7 LED_BLINK_TICKS (blink l) (pin l).

(** ** USB callbacks run by tud_task *)

(* hid.c:127 and usb.c:146: what the host can trigger inside tud_task *)
Inductive usb_event :=
| SetReport (itf id type : Z) (buffer : list Z)
| Suspend.

(* usb.h:17 ITF_KEYBOARD = 0; TinyUSB HID_REPORT_TYPE_OUTPUT = 2 *)
Definition ITF_KEYBOARD : Z := 0.
Definition HID_REPORT_TYPE_OUTPUT : Z := 2.

(* hid.c:127-139 tud_hid_set_report_cb and usb.c:146-171 tud_suspend_cb *)
Definition usb_callback (e : usb_event) (l : led) : led :=
  match e with
  | Suspend => led_blink 0 l
  | SetReport itf id type buffer =>
      match buffer with
      | [b0] =>
          if (itf =? ITF_KEYBOARD) && (id =? 0) && (type =? HID_REPORT_TYPE_OUTPUT) then
            match Z.land b0 3 with
            | 0 => led_blink 1 l
            | 1 => led_blink 0 l
            | 2 => led_blink 0xFE l
            | 3 => led_blink 0xFF l
            | _ => l
            end
          else l
      | _ => l
      end
  end.

(** ** main.c *)

Record fw := mkFw {
  f_deb : list Z; f_mat : mat; f_hid : hid; f_enc : enc; f_led : led }.

(* the zero-initialised statics *)
Definition fw_init : fw :=
  mkFw (repeat 0 KEYS) mat_init hid_init enc_init led_init.

(* Everything the outside world decides during one loop iteration.
   tud_suspended() only changes inside tud_task, so it is constant between
   two tud_task calls. *)
Record input := mkInput {
  i_samples : list bool; i_a : bool; i_b : bool; i_susp : bool; i_bus : bus;
  i_events : list usb_event }.

Record output := mkOutput {
  o_reports : list (nat * bool);  (* debounced key events *)
  o_usage : Z;                    (* rotation event of this tick *)
  o_eff : list eff; o_sent : list sent }.

(* main.c:36-47 one iteration of the main loop; None = out-of-bounds access *)
Definition fw_tick (L : layers_t) (i : input) (f : fw) : option (fw * output) :=
  let '(deb', evs) := scan MATRIX_DEBOUNCE_TICKS 0 (f_deb f) (i_samples i) in
  let '((m1, h1), e1) := mreports L (i_susp i) evs (f_mat f, f_hid f) in
  let '(st, usage) := enc_step (e_state (f_enc f)) (i_a i) (i_b i) in
  match st with
  | None => None
  | Some st' =>
      let '((cur, tmo, h2), e2) :=
        ereport (i_susp i) usage (e_current (f_enc f)) (e_timeout (f_enc f)) h1 in
      let '(h3, snt) := hid_tick (i_bus i) h2 in
      let l1 := led_tick (f_led f) in
      let l2 := fold_left (fun l e => usb_callback e l) (i_events i) l1 in
      Some (mkFw deb' m1 h3 (mkEnc st' cur tmo) l2, mkOutput evs usage (e1 ++ e2) snt)
  end.

Fixpoint fw_run (L : layers_t) (is : list input) (f : fw) : option (fw * list output) :=
  match is with
  | [] => Some (f, [])
  | i :: r => match fw_tick L i f with
              | None => None
              | Some (f1, o) => match fw_run L r f1 with
                                | None => None
                                | Some (f2, os) => Some (f2, o :: os)
                                end
              end
  end.

(** ** usb.c string descriptors *)

(* TUSB_DESC_STRING *)
Definition TUSB_DESC_STRING : Z := 3.

(* little-endian bytes of a uint16_t (the RP2040 is little-endian) *)
Definition le16 (x : Z) : list Z := [x mod 256; (x / 256) mod 256].

(* usb.c:103-113: packed struct { length = sizeof, type, uint16_t string[n] } *)
Definition packed_string (s : list Z) : list Z :=
  (2 + 2 * Z.of_nat (length s)) :: TUSB_DESC_STRING :: flat_map le16 s.

(* usb.c:103-118 and 121-140.  [ascii] is the string delivered by
   pico_get_unique_board_id_string: SERIAL_DIGITS = 16 characters.
   serialString has 17 elements: header TUSB_DESC_STRING<<8 | sizeof, digits. *)
Definition languageString := [0x0409].
Definition manufactString := [115;101;118;46;100;101;118].
Definition productString := [67;104;114;117;109;109;32;107;101;121;98;111;97;114;100].
Definition SERIAL_DIGITS : nat := 16.
Definition serialString (ascii : list Z) : list Z :=
  Z.lor (Z.shiftl TUSB_DESC_STRING 8) (2 * Z.of_nat (SERIAL_DIGITS + 1))
    :: map (fun i => nth i ascii 0) (seq 0 SERIAL_DIGITS).

(* bytes seen through the returned pointer; None = NULL *)
Definition string_cb (index : Z) (ascii : list Z) : option (list Z) :=
  match index with
  | 0 => Some (packed_string languageString)
  | 1 => Some (packed_string manufactString)
  | 2 => Some (packed_string productString)
  | 3 => Some (flat_map le16 (serialString ascii))
  | _ => None
  end.
