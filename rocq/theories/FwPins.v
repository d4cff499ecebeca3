(** The key matrix at the level of pins: /repo/firmware/chrumm/matrix.c:18-60. *)
From Coq Require Import List ZArith Bool Lia.
From Verif Require Import FwModel.
Import ListNotations.
Open Scope nat_scope.

(* the state of the pins: direction (true: output), driven level, pull-up resistor *)
Record pins := mkPins { p_out : nat -> bool; p_level : nat -> bool; p_pull : nat -> bool }.
Definition upd (f : nat -> bool) (i : nat) (b : bool) : nat -> bool := fun j => if Nat.eqb j i then b else f j.
(* Pico SDK, gpio_init: input, driven level 0; the pulls stay *)
Definition gpio_init (pin : nat) (g : pins) : pins := mkPins (upd (p_out g) pin false) (upd (p_level g) pin false) (p_pull g).
(* Pico SDK, gpio_set_dir, gpio_put, gpio_pull_up *)
Definition gpio_set_dir (pin : nat) (b : bool) (g : pins) : pins := mkPins (upd (p_out g) pin b) (p_level g) (p_pull g).
Definition gpio_put (pin : nat) (b : bool) (g : pins) : pins := mkPins (p_out g) (upd (p_level g) pin b) (p_pull g).
Definition gpio_pull_up (pin : nat) (g : pins) : pins := mkPins (p_out g) (p_level g) (upd (p_pull g) pin true).

Section Matrix.
(* config.h:12-13, matrix.c:11-12 *)
Variable rowPins colPins : list nat.
(* the wiring drawn in matrix.c:20-23: a closed switch connects its column, through a diode, with its row.  A column is
   low if a row with a closed switch is driven low; a column that is not pulled down reads 1 if it has a pull-up, and
   anything otherwise *)
Definition grounded (closed : nat -> nat -> bool) (g : pins) (pin : nat) : bool :=
  existsb (fun rp : nat * nat => existsb (fun cp : nat * nat => Nat.eqb (snd cp) pin && closed (fst rp) (fst cp)) (combine (seq 0 (length colPins)) colPins)
    && p_out g (snd rp) && negb (p_level g (snd rp))) (combine (seq 0 (length rowPins)) rowPins).
Definition gpio_get (closed : nat -> nat -> bool) (floating : bool) (g : pins) (pin : nat) : bool :=
  if p_out g pin then p_level g pin
  else if grounded closed g pin then false
  else if p_pull g pin then true else floating.
(* matrix.c:18-38 matrix_init *)
Definition matrix_init (g : pins) : pins :=
  let g := fold_left (fun g pin => gpio_put pin true (gpio_set_dir pin true (gpio_init pin g))) rowPins g in
  fold_left (fun g pin => gpio_pull_up pin (gpio_set_dir pin false (gpio_init pin g))) colPins g.
(* the switches and the level of an open pin, at the moment of each of the readings of a tick *)
Variable closed : nat -> nat -> nat -> bool.
Variable floating : nat -> bool.
(* matrix.c:52-56: one row; t counts the readings.  The level of each column, in order *)
Fixpoint readRow (g : pins) (t : nat) (cols : list nat) : list bool :=
  match cols with
  | [] => []
  | pin :: r => gpio_get (closed t) (floating t) g pin :: readRow g (S t) r
  end.
(* matrix.c:48-59: the readings of all rows in order *)
Fixpoint readRows (g : pins) (t : nat) (rows : list nat) : pins * list bool :=
  match rows with
  | [] => (g, [])
  | pin :: r =>
      let g := gpio_put pin false g in
      let here := readRow g t colPins in
      let g := gpio_put pin true g in
      let '(g', later) := readRows g (t + length colPins) r in
      (g', here ++ later)
  end.
Definition matrix_read (g : pins) : pins * list bool := readRows g 0 rowPins.
End Matrix.
(* config.h:12-13 *)
Definition MATRIX_ROW_PINS : list nat := [2; 3; 4; 5; 8]%nat.
Definition MATRIX_COL_PINS : list nat := [17; 18; 19; 20; 21; 22; 9; 10; 11; 12; 13; 14; 15]%nat.
(* config.h:15-18 *)
Definition OTHER_PINS : list nat := [0; 1; 25]%nat.
(* what happens between two scans: the switches and open pins during the scan, then the other parts of the
   program (encoder.c, led.c), which change pins as well *)
Record tick := mkTick { t_closed : nat -> nat -> nat -> bool; t_floating : nat -> bool; t_other : pins -> pins }.
(* main.c:29,37: the scans of the main loop *)
Fixpoint matrix_run (rowPins colPins : list nat) (ticks : list tick) (g : pins) : list (list bool) :=
  match ticks with
  | [] => []
  | t :: r => let '(g', bits) := matrix_read rowPins colPins (t_closed t) (t_floating t) g in bits :: matrix_run rowPins colPins r (t_other t g')
  end.
