(** C43, C44: numbers and labels of the KiCad footprint (body/chrumm/pcb.py). *)
From Flocq Require Import Core.Core BinarySingleNaN.
From Coq Require Import Ascii String ZArith Reals Lra Lia List Bool.
From Verif Require Import PrettyModel PrettySpec PrettyProof.
Import ListNotations.
Open Scope string_scope.

(* every finite float is written with its sign, without superfluous zeros, and
   the digits read back as its absolute value in thousandths, rounded half to even *)
Theorem C43_pretty : forall x : float, is_finite x = true ->
  exists ip fp q, pretty x = number_text (Bsign x) ip fp /\ tidy ip fp /\
    reads_as ip fp (IZR q / 1000) /\ rounds_to (1000 * Rabs (B2R x)) q.
Proof.
  intros [s|s| |s m e H] F; try discriminate.
  - exists "0", "", 0%Z. split; [destruct s; reflexivity|]. split; [split; [left; reflexivity|]; split; [cbn; lia|intros [|c [|c' p]]; discriminate]|].
    split; [exists 0%Z, 0%Z; split; [reflexivity|]; split; [reflexivity|cbn; lra]|]. cbn [B2R]. rewrite Rabs_R0, Rmult_0_r. unfold rounds_to. rewrite Rminus_0_r, Rabs_R0. split; [lra|reflexivity].
  - destruct (fixed3_strip s (thousandths m e) (thousandths_pos m e)) as (ip & fp & E & T & RA). exists ip, fp, (thousandths m e). split; [exact E|]. split; [exact T|]. split; [exact RA|].
    apply thousandths_spec.
Qed.
Print Assumptions C43_pretty.
(* so the text is at most half a thousandth off *)
Theorem C43_error : forall x : float, is_finite x = true ->
  exists ip fp v, pretty x = number_text (Bsign x) ip fp /\ reads_as ip fp v /\ (Rabs (Rabs (B2R x) - v) <= / 2000)%R.
Proof.
  intros x F. destruct (C43_pretty x F) as (ip & fp & q & E & _ & RA & (RT & _)). exists ip, fp, (IZR q / 1000)%R. split; [exact E|]. split; [exact RA|].
  replace (Rabs (B2R x) - IZR q / 1000)%R with ((1000 * Rabs (B2R x) - IZR q) / 1000)%R by field. unfold Rdiv. rewrite Rabs_mult, (Rabs_pos_eq (/ 1000)) by lra. lra.
Qed.
Print Assumptions C43_error.
(* the digits determine the value *)
Theorem C43_reads_once : forall ip fp v w, reads_as ip fp v -> reads_as ip fp w -> v = w.
Proof. intros ip fp v w (i & f & A & B & ->) (i' & f' & A' & B' & ->). congruence. Qed.
Print Assumptions C43_reads_once.

(* a marker whose angle is not negative: no label exactly if the angle rounds to
   zero, else a minus sign once, then the angle *)
Theorem C44_label_partial : forall x : float, is_finite x = true -> Bsign x = false ->
  exists ip fp q, tidy ip fp /\ reads_as ip fp (IZR q / 1000) /\ rounds_to (1000 * Rabs (B2R x)) q /\
   label x = if Z.eqb q 0 then None else Some (number_text true ip fp).
Proof.
  intros x F S. destruct (C43_pretty x F) as (ip & fp & q & E & T & RA & RT). exists ip, fp, q. split; [exact T|]. split; [exact RA|]. split; [exact RT|].
  unfold label. rewrite E, S. unfold number_text. cbn [append].
  assert (ZT := zero_text ip fp q T RA). destruct (Z.eqb_spec q 0) as [Q|Q]; destruct (String.eqb_spec (ip ++ match fp with "" => "" | String _ _ => String "." fp end) "0") as [C|C]; try reflexivity.
  - exfalso. apply C. apply ZT. exact Q.
  - exfalso. apply Q. apply ZT. exact C.
Qed.
Print Assumptions C44_label_partial.
(* negative angles get two minus signs, and the label is never left out, even
   if the angle is written as 0 *)
Theorem C44_negative_refuted : forall x : float, is_finite x = true -> Bsign x = true ->
  exists ip fp, pretty x = number_text true ip fp /\ label x = Some ("--" ++ number_text false ip fp).
Proof.
  intros x F S. destruct (C43_pretty x F) as (ip & fp & q & E & T & RA & RT). exists ip, fp. rewrite <- S. split; [exact E|].
  unfold label. rewrite E, S. destruct ip as [|c [|c' r]]; reflexivity.
Qed.
Print Assumptions C44_negative_refuted.
(* -0.0001 (about -1.7e-6 radians): the label reads --0 *)
Definition tiny : float := binary_normalize 53 1024 ltac:(reflexivity) ltac:(reflexivity) mode_NE (-7378697629483821) (-66) false.
Definition half1 : float := binary_normalize 53 1024 ltac:(reflexivity) ltac:(reflexivity) mode_NE 1 (-4) false.
Example C44_tiny : is_finite tiny = true /\ Bsign tiny = true /\ label tiny = Some "--0".
Proof. vm_compute. auto. Qed.
(* 1/16 = 0.0625: a tie, rounded to the even digit; the plain cases *)
Example C43_computes : pretty half1 = "0.062" /\ is_finite half1 = true /\
  pretty (binary_normalize 53 1024 ltac:(reflexivity) ltac:(reflexivity) mode_NE 100 0 false) = "100" /\
  pretty (binary_normalize 53 1024 ltac:(reflexivity) ltac:(reflexivity) mode_NE (-25) (-1) false) = "-12.5" /\
  label (binary_normalize 53 1024 ltac:(reflexivity) ltac:(reflexivity) mode_NE 25 (-1) false) = Some "-12.5" /\
  label (B754_zero false) = None /\ label (B754_zero true) = Some "--0".
Proof. vm_compute. repeat split. Qed.
