From Coq Require Import List ZArith Bool Lia.
From Verif Require Import FwModel FwSpec.
Import ListNotations.
Open Scope Z_scope.

Lemma seven s : 0 <= s <= 6 -> s = 0 \/ s = 1 \/ s = 2 \/ s = 3 \/ s = 4 \/ s = 5 \/ s = 6.
Proof. lia. Qed.

Lemma enc_step_range s a b : 0 <= s <= 6 ->
  exists s', fst (enc_step s a b) = Some s' /\ 0 <= s' <= 6.
Proof.
  intros H. apply seven in H.
  destruct H as [->|[->|[->|[->|[->|[->| ->]]]]]]; destruct a, b; cbn; eexists; (split; [reflexivity|lia]).
Qed.

Lemma enc_state_range samples : exists s, enc_state samples = Some s /\ 0 <= s <= 6.
Proof.
  induction samples as [|[a b] samples IH]; cbn [enc_state].
  - exists 3. split; [reflexivity|lia].
  - destruct IH as (s & -> & Hs). destruct (enc_step_range s a b Hs) as (s' & -> & Hs').
    exists s'. auto.
Qed.

(* the table index is below 28 *)
Lemma enc_index samples a b :
  exists s, enc_state samples = Some s /\ 0 <= u8 (u8 (s * 2 + Z.b2z a) * 2 + Z.b2z b) < 28.
Proof.
  destruct (enc_state_range samples) as (s & E & Hs). exists s. split; [exact E|].
  apply seven in Hs.
  destruct Hs as [->|[->|[->|[->|[->|[->| ->]]]]]]; destruct a, b; cbn; lia.
Qed.

(* offset from the last detent encoded by the state *)
Definition offset (s : Z) : Z :=
  if s =? 3 then 0 else if s =? 5 then 1 else if s =? 4 then 2 else if s =? 6 then 3
  else if s =? 2 then -1 else if s =? 0 then -2 else -3.

Lemma mod4 p : p mod 4 = 0 \/ p mod 4 = 1 \/ p mod 4 = 2 \/ p mod 4 = 3.
Proof. pose proof (Z.mod_pos_bound p 4 ltac:(lia)). lia. Qed.

Lemma ab_at_add n d : ab_at (4 * n + d) = ab_at d.
Proof. unfold ab_at. replace (4 * n + d) with (d + n * 4) by lia. rewrite Z.mod_add by lia. reflexivity. Qed.

Lemma enc_net_cons x older :
  enc_net (x :: older) = event_value (enc_event (x :: older)) + enc_net older.
Proof. reflexivity. Qed.

Lemma enc_walk ps :
  is_walk ps ->
  exists s, enc_state (map ab_at ps) = Some s /\ 0 <= s <= 6 /\
            hd 0 ps = 4 * enc_net (map ab_at ps) + offset s.
Proof.
  induction ps as [|p ps IH]; intros Hw.
  - exists 3. cbn. repeat split; lia.
  - destruct Hw as [Hd Hw]. destruct (IH Hw) as (s & Es & Hs & Hp). clear IH Hw.
    cbn [map]. destruct (ab_at p) as [a b] eqn:Eab.
    rewrite enc_net_cons. unfold enc_event. cbn [enc_state hd]. rewrite Es.
    set (n := enc_net (map ab_at ps)) in *. clearbody n.
    assert (Hpp : exists d, p = 4 * n + (offset s + d) /\ -1 <= d <= 1) by
      (exists (p - hd 0 ps); lia).
    destruct Hpp as (d & -> & Hdd). clear Hp Hd Es.
    rewrite ab_at_add in Eab.
    assert (Hd3 : d = -1 \/ d = 0 \/ d = 1) by lia.
    apply seven in Hs.
    destruct Hs as [->|[->|[->|[->|[->|[->| ->]]]]]];
    destruct Hd3 as [->|[->| ->]]; cbn in Eab; inversion Eab; subst a b;
    (eexists; split; [reflexivity|]; split; [cbn; lia|]);
    match goal with |- context [event_value ?u] => let v := eval vm_compute in (event_value u) in
      change (event_value u) with v end;
    match goal with |- context [offset ?u = _] => idtac | |- _ => idtac end;
    unfold offset; cbn -[Z.mul Z.add]; lia.
Qed.

Lemma offset_range s : -3 <= offset s <= 3.
Proof.
  unfold offset. repeat match goal with |- context [if ?b then _ else _] => destruct b end; lia.
Qed.

Lemma enc_rest ps :
  is_walk ps -> hd 0 ps mod 4 = 0 -> enc_net (map ab_at ps) = hd 0 ps / 4.
Proof.
  intros Hw Hm. destruct (enc_walk ps Hw) as (s & _ & _ & Hp).
  pose proof (offset_range s). pose proof (Z.div_mod (hd 0 ps) 4 ltac:(lia)). lia.
Qed.

(* an event leaves the machine in its rest state *)
Lemma event_rest x older s :
  enc_state (x :: older) = Some s -> event_value (enc_event (x :: older)) <> 0 -> offset s = 0.
Proof.
  destruct x as [a b]. cbn [enc_state]. unfold enc_event.
  destruct (enc_state_range older) as (s0 & -> & Hs). apply seven in Hs.
  destruct Hs as [->|[->|[->|[->|[->|[->| ->]]]]]]; destruct a, b; intros E Hne;
    try (exfalso; apply Hne; reflexivity); inversion E; reflexivity.
Qed.

Lemma enc_counts_detents ps :
  is_walk ps -> enc_net (map ab_at ps) = last_detent ps.
Proof.
  induction ps as [|p ps IH]; intros Hw; [reflexivity|].
  cbn [last_detent]. destruct (p mod 4 =? 0) eqn:E.
  - apply Z.eqb_eq in E. apply (enc_rest (p :: ps)); assumption.
  - apply Z.eqb_neq in E. destruct (enc_walk (p :: ps) Hw) as (s' & Es' & Hs' & Hp').
    destruct Hw as [Hd Hw]. rewrite <- (IH Hw). cbn [map] in *. rewrite enc_net_cons.
    destruct (Z.eq_dec (event_value (enc_event (ab_at p :: map ab_at ps))) 0) as [->|Hne]; [lia|].
    exfalso. apply E. cbn [hd] in Hp'. rewrite Hp', (event_rest _ _ _ Es' Hne).
    rewrite Z.add_0_r, Z.mul_comm. apply Z.mod_mul. lia.
Qed.

(** Arbitrary sample sequences behave like the tracked walk. *)
Lemma track_walk samples : is_walk (track samples).
Proof.
  induction samples as [|x samples IH]; cbn [track is_walk]; [exact I|]. split; [|exact IH].
  destruct (ab_eqb x _); [lia|]. destruct (ab_eqb x _); lia.
Qed.

Lemma ab_eqb_eq x y : ab_eqb x y = true -> x = y.
Proof. destruct x as [[] []], y as [[] []]; cbn; congruence. Qed.

(* a sample that is not a step is treated like standing still *)
Lemma stay_step s x : 0 <= s <= 6 ->
  ab_eqb x (ab_at (offset s + 1)) = false -> ab_eqb x (ab_at (offset s - 1)) = false ->
  enc_step s (fst x) (snd x) = enc_step s (fst (ab_at (offset s))) (snd (ab_at (offset s))).
Proof.
  intros Hs. apply seven in Hs.
  destruct Hs as [->|[->|[->|[->|[->|[->| ->]]]]]]; destruct x as [[] []]; cbn; intros; try discriminate; reflexivity.
Qed.

Lemma track_same samples :
  enc_state samples = enc_state (map ab_at (track samples)) /\
  enc_net samples = enc_net (map ab_at (track samples)).
Proof.
  induction samples as [|x samples [IHs IHn]]; [split; reflexivity|].
  cbn [track map]. set (ps := track samples) in *.
  destruct (enc_walk ps (track_walk samples)) as (s & Es & Hs & Hp).
  set (q := if ab_eqb x _ then _ else _).
  assert (Hstep : enc_step s (fst x) (snd x) = enc_step s (fst (ab_at q)) (snd (ab_at q))).
  { unfold q. destruct (ab_eqb x (ab_at (hd 0 ps + 1))) eqn:E1; [apply ab_eqb_eq in E1; rewrite E1; reflexivity|].
    destruct (ab_eqb x (ab_at (hd 0 ps - 1))) eqn:E2; [apply ab_eqb_eq in E2; rewrite E2; reflexivity|].
    rewrite Hp, <- Z.add_assoc, ab_at_add in E1.
    rewrite Hp, <- Z.add_sub_assoc, ab_at_add in E2. rewrite Hp, ab_at_add. apply stay_step; assumption. }
  clearbody q. rewrite !enc_net_cons. unfold enc_event. cbn [enc_state].
  destruct x as [a b], (ab_at q) as [a' b']. cbn [fst snd] in Hstep.
  rewrite IHs, Es, Hstep, IHn. split; reflexivity.
Qed.

Lemma enc_counts_tracked samples : enc_net samples = last_detent (track samples).
Proof.
  rewrite (proj2 (track_same samples)). apply enc_counts_detents, track_walk.
Qed.

(** For arbitrary, even impossible, sample sequences an event needs the full
    quadrature sequence since the previous event. *)
Lemma subseq_nil_inv {A} (l : list A) : subseq [] l.
Proof. constructor. Qed.

Definition seq_inv (s : Z) (w : list (bool * bool)) : Prop :=
  (* w newest first: so the required sequence is newest first as well *)
  if s =? 5 then subseq [(false,true)] w
  else if s =? 4 then subseq [(false,false);(false,true)] w
  else if s =? 6 then subseq [(true,false);(false,false);(false,true)] w
  else if s =? 2 then subseq [(true,false)] w
  else if s =? 0 then subseq [(false,false);(true,false)] w
  else if s =? 1 then subseq [(false,true);(false,false);(true,false)] w
  else True.

Lemma subseq_tl {A} (x : A) s l : subseq (x :: s) l -> subseq s l.
Proof.
  intros H. remember (x :: s) as y eqn:E. revert x s E.
  induction H as [l|z s' l H IH|z s' l H IH]; intros x s E; [discriminate| |].
  - inversion E; subst. apply sub_skip. exact H.
  - apply sub_skip. apply (IH x s E).
Qed.

Lemma since_inv samples s :
  enc_state samples = Some s -> seq_inv s (since_event samples).
Proof.
  revert s; induction samples as [|[a b] samples IH]; intros s' Es'.
  - cbn in Es'. inversion Es'. cbn. exact I.
  - cbn [enc_state] in Es'. cbn [since_event]. unfold enc_event.
    destruct (enc_state_range samples) as (s & Es & Hs). rewrite Es in *.
    specialize (IH s eq_refl). set (w := since_event samples) in *. clearbody w.
    apply seven in Hs.
    destruct Hs as [->|[->|[->|[->|[->|[->| ->]]]]]]; destruct a, b; cbn in Es';
      inversion Es'; subst s'; clear Es'; cbn in IH |- *;
      try exact I;
      repeat first [ exact IH | apply sub_nil | apply sub_take; exact IH | apply sub_skip; exact IH
            | apply sub_skip; apply (subseq_tl _ _ _ IH)
            | apply sub_take; first [apply sub_nil | exact (subseq_tl _ _ _ IH)
                                    | exact (subseq_tl _ _ _ (subseq_tl _ _ _ IH))] ].
Qed.

Lemma event_sequence samples :
  let full := (true,true) in
  (enc_event samples = ENCODER_CW_USAGE ->
   exists older, samples = full :: older /\
     subseq [(true,false);(false,false);(false,true)] (since_event older)) /\
  (enc_event samples = ENCODER_CCW_USAGE ->
   exists older, samples = full :: older /\
     subseq [(false,true);(false,false);(true,false)] (since_event older)).
Proof.
  cbv zeta. destruct samples as [|[a b] older]; [cbn; split; discriminate|].
  unfold enc_event. destruct (enc_state_range older) as (s & Es & Hs). rewrite Es.
  pose proof (since_inv older s Es) as Hi. apply seven in Hs.
  split; intros H;
    (destruct Hs as [->|[->|[->|[->|[->|[->| ->]]]]]]; destruct a, b; try discriminate H;
     exists older; split; [reflexivity|exact Hi]).
Qed.

(** ** Pulses *)

Lemma ereport_busy susp u c t h : 0 < t -> fst (ereport susp u c t h) = (c, t - 1, h).
Proof.
  intros Ht. unfold ereport. assert ((t =? 0) = false) as -> by (apply Z.eqb_neq; lia). reflexivity.
Qed.

Lemma ereports_busy calls c t h :
  Z.of_nat (length calls) <= t -> ereports calls (c, t, h) = (c, t - Z.of_nat (length calls), h).
Proof.
  revert t; induction calls as [|[susp u] calls IH]; intros t Ht; cbn [ereports length] in *.
  - f_equal. f_equal. lia.
  - rewrite ereport_busy by lia. rewrite IH by lia. f_equal. f_equal. lia.
Qed.

Lemma pulse susp u c h calls :
  u <> kNONE -> length calls = 30%nat ->
  let h0 := if c =? kNONE then h else hid_remove c h in
  let h1 := fst (hid_add susp u h0) in
  (* the press *)
  fst (ereport susp u c 0 h) = (u, 30, h1) /\
  (* the next 30 ticks change nothing, whatever events arrive *)
  (forall n, (n <= 30)%nat -> ereports (firstn n calls) (u, 30, h1) = (u, 30 - Z.of_nat n, h1)) /\
  (* then it is released, and a new event of that very tick is accepted *)
  (forall susp' u', fst (ereport susp' u' u 0 h1) =
     if u' =? kNONE then (kNONE, 0, hid_remove u h1)
     else (u', 30, fst (hid_add susp' u' (hid_remove u h1)))).
Proof.
  intros Hu Hl h0 h1. repeat split.
  - unfold ereport. cbn [Z.eqb negb]. subst h1 h0.
    destruct (c =? kNONE) eqn:Ec; cbn [negb];
      (assert ((u =? kNONE) = false) as -> by (apply Z.eqb_neq; exact Hu)); cbn [negb];
      destruct (hid_add susp u _); reflexivity.
  - intros n Hn. assert (length (firstn n calls) = n) by (rewrite firstn_length; lia).
    rewrite ereports_busy by lia. rewrite H. reflexivity.
  - intros susp' u'. unfold ereport. cbn [Z.eqb negb].
    assert ((u =? kNONE) = false) as -> by (apply Z.eqb_neq; exact Hu). cbn [negb].
    destruct (u' =? kNONE); cbn [negb]; [reflexivity|].
    destruct (hid_add susp' u' _); reflexivity.
Qed.

(* an idle encoder does not touch the report *)
Lemma idle_encoder susp h : ereport susp kNONE kNONE 0 h = ((kNONE, 0, h), []).
Proof. reflexivity. Qed.
