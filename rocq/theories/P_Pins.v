(** Property C79: every switch is read on its own. *)
From Coq Require Import List ZArith Bool Arith Lia.
From Verif Require Import FwModel FwSpec FwPins FwPinsProof.
Import ListNotations.
Open Scope nat_scope.

(* the rest of the program does not touch the pins of the matrix *)
Definition leaves_alone (l : list nat) (other : pins -> pins) : Prop :=
  forall g p, In p l -> p_out (other g) p = p_out g p /\ p_level (other g) p = p_level g p /\ p_pull (other g) p = p_pull g p.
Lemma nth_flat {A} (f : nat -> list A) c : (forall i, length (f i) = c) -> forall a m i j, i < m -> j < c -> nth_error (flat_map f (seq a m)) (i * c + j) = nth_error (f (a + i)) j.
Proof.
  intros L a m. revert a. induction m as [|m IH]; intros a i j Hi Hj; [lia|]. cbn [seq flat_map]. destruct i as [|i].
  - rewrite nth_error_app1 by (rewrite L; cbn; lia). rewrite Nat.add_0_r. reflexivity.
  - rewrite nth_error_app2 by (rewrite L; cbn; lia). rewrite L. replace (S i * c + j - c) with (i * c + j) by (cbn; lia). rewrite (IH (S a) i j) by lia. f_equal. f_equal. lia.
Qed.
Lemma length_flat {A} (f : nat -> list A) c : (forall i, length (f i) = c) -> forall l, length (flat_map f l) = length l * c.
Proof. intros L. induction l as [|a l IH]; [reflexivity|]. cbn [flat_map length]. rewrite app_length, L, IH. lia. Qed.

(* whatever state the pins were in before, and whichever switches are closed and change during the scans: after
   the initialisation, each scan reads for the switch in row r and column c exactly whether this switch is
   closed at that moment (0) or not (1), in the order of the keys.  In particular, other closed switches never make a key
   appear pressed, and every row is driven again as it was *)
Theorem C79_scan_reads_switches : forall rowPins colPins g0 ticks, NoDup (rowPins ++ colPins) -> Forall (fun t => leaves_alone (rowPins ++ colPins) (t_other t)) ticks ->
  Forall2 (fun t bits => length bits = length rowPins * length colPins /\
      forall r c, r < length rowPins -> c < length colPins ->
        let key := r * length colPins + c in nth_error bits key = Some (negb (t_closed t key r c)))
    ticks (matrix_run rowPins colPins ticks (matrix_init rowPins colPins g0)).
Proof.
  intros rowPins colPins g0 ticks ND F. pose proof (init_idle rowPins colPins ND g0) as I. set (g := matrix_init rowPins colPins g0) in *. clearbody g. revert g I.
  induction F as [|t ticks LA _ IH]; intros g I; [constructor|]. cbn [matrix_run]. unfold matrix_read.
  destruct (read_rows rowPins colPins ND (t_closed t) (t_floating t) rowPins 0 0 g (fun i => eq_refl) I) as (g' & R & I' & _). rewrite R. constructor.
  - set (f := fun i => expected colPins (t_closed t) (0 + i * length colPins) (0 + i)). change (length (flat_map f (seq 0 (length rowPins))) = length rowPins * length colPins /\ forall r c, r < length rowPins -> c < length colPins ->
      let key := r * length colPins + c in nth_error (flat_map f (seq 0 (length rowPins))) key = Some (negb (t_closed t key r c))).
    assert (L : forall i, length (f i) = length colPins) by (intros i; unfold f, expected; rewrite map_length, seq_length; reflexivity). split.
    + rewrite (length_flat f _ L), seq_length. reflexivity.
    + intros r c Hr Hc key. unfold key. rewrite (nth_flat f _ L 0 (length rowPins) r c Hr Hc). cbn [Nat.add]. unfold f, expected. cbn [Nat.add].
      rewrite nth_error_map, (nth_error_nth' (seq 0 (length colPins)) 0) by (rewrite seq_length; exact Hc). cbn [option_map]. rewrite seq_nth by exact Hc. reflexivity.
  - apply IH. destruct I' as (I1 & I2). split; intros p J; destruct (LA g' p) as (E1 & E2 & E3); try (apply in_app_iff; auto); rewrite ?E1, ?E2, ?E3; auto.
Qed.
Print Assumptions C79_scan_reads_switches.
(* the pins of the matrix are left as they were between the scans: rows driven high, columns pulled up *)
Theorem C79_pins_idle : forall rowPins colPins closed floating g, NoDup (rowPins ++ colPins) ->
  (forall p, In p rowPins -> p_out g p = true /\ p_level g p = true) -> (forall p, In p colPins -> p_out g p = false /\ p_pull g p = true) ->
  forall q, let g' := fst (matrix_read rowPins colPins closed floating g) in p_out g' q = p_out g q /\ p_level g' q = p_level g q /\ p_pull g' q = p_pull g q.
Proof.
  intros rowPins colPins closed floating g ND I1 I2 q g'. unfold g', matrix_read. destruct (read_rows rowPins colPins ND closed floating rowPins 0 0 g (fun i => eq_refl) (conj I1 I2)) as (g1 & R & _ & E). rewrite R. apply E.
Qed.
Print Assumptions C79_pins_idle.
(* the pins of the keyboard: all different, also from those of the encoder and the LED, and pins of the chip *)
Theorem C79_default_pins : NoDup (MATRIX_ROW_PINS ++ MATRIX_COL_PINS ++ OTHER_PINS) /\ length MATRIX_ROW_PINS = MATRIX_ROWS /\ length MATRIX_COL_PINS = MATRIX_COLS /\
  forall p, In p (MATRIX_ROW_PINS ++ MATRIX_COL_PINS ++ OTHER_PINS) -> p < 30.
Proof.
  split; [repeat (constructor; [cbn; intuition discriminate|]); constructor|]. split; [reflexivity|]. split; [reflexivity|].
  intros p I. cbn in I. repeat (destruct I as [<-|I]; [lia|]). destruct I.
Qed.
Print Assumptions C79_default_pins.
(* three corners of a rectangle are pressed: the fourth is not reported *)
Example C79_nonvacuous : let closed := fun _ r c => match r, c with 0, 0 | 0, 1 | 1, 0 => true | _, _ => false end in
  matrix_run [2; 3] [9; 10] [mkTick closed (fun _ => false) (gpio_put 25 true)] (matrix_init [2; 3] [9; 10] (mkPins (fun _ => true) (fun _ => false) (fun _ => false))) = [[false; false; false; true]].
Proof. reflexivity. Qed.
Example C79_leaves_alone : leaves_alone (MATRIX_ROW_PINS ++ MATRIX_COL_PINS) (gpio_put 25 true).
Proof. intros g p I. unfold gpio_put. cbn [p_out p_level p_pull]. split; [reflexivity|]. split; [|reflexivity]. unfold upd. destruct (Nat.eqb_spec p 25) as [->|]; [|reflexivity]. exfalso. cbn in I. intuition discriminate. Qed.
