(** Cutting off loops in _naiveOffset2D. *)
From Coq Require Import Reals Lra Psatz ZArith List Bool Arith Lia.
From Verif Require Import Num GeoModel EdgeModel GeoSpec GeoMat GeoFig GeoCirc EdgeSpecR EdgeReal ArcModel FloorModel PolySpec OffSpec OffProof.
Import ListNotations.
Open Scope R_scope.

(* two pieces touch at v *)
Definition touch (s o : seg) (v : pt) : Prop := cross_at (sa s) (sb s) (sa o) (sb o) v.
Lemma on_segment_seg2 x p q : on_segment x p q <-> on_seg2 p q x.
Proof. unfold on_segment, on_seg2, at2, P, X, Y. cbn. tauto. Qed.
Lemma on_seg_line p q x : on_seg2 p q x -> on_line2 p q x.
Proof. intros (t & _ & H). exists t. exact H. Qed.
Lemma inter0 (s o : seg) : exists m, sintersect2D s o 0 = Ok m /\
  (forall v, m = Some v -> touch s o v /\ Z v = 0) /\ (forall v, touch s o v -> exists w, m = Some w /\ X w = X v /\ Y w = Y v).
Proof.
  destruct (sintersect2D_spec s o 0) as [[SM E]|[SP [(v & E & Zv & A & B & U)|[E NO]]]].
  - exists None. split; [exact E|]. split; [discriminate|]. intros v (C & _). exfalso. unfold spans, cross2, eps in *. lra.
  - exists (Some v). split; [exact E|]. cbn in A, B. split.
    + intros w Ew. assert (Q : v = w) by congruence. subst w. split; [|exact Zv]. split; [exact SP|]. split; apply on_segment_seg2; assumption.
    + intros w (_ & H1 & H2). exists v. split; [reflexivity|]. apply on_segment_seg2 in H1, H2. destruct (U w (on_seg_line _ _ _ H1) (on_seg_line _ _ _ H2)); auto.
  - exists None. split; [exact E|]. split; [discriminate|]. intros v (_ & H1 & H2). exfalso. apply on_segment_seg2 in H1, H2. exact (NO v H1 H2).
Qed.
Definition sq (p q : pt) : R := vmag2 (vsub p q).
Lemma sq_xy (p p' q : pt) : X p = X p' -> Y p = Y p' -> Z p = Z p' -> sq p q = sq p' q.
Proof. intros A B C. assert (E : p = p') by (apply pt_ext; assumption). rewrite E. reflexivity. Qed.

(* the fold over the candidates *)
Definition best_of (s : seg) (cands : list seg) (k0 : nat) (best : option (pt * R * nat)) : Prop :=
  match best with
  | None => forall j v, (j < length cands)%nat -> ~ touch s (nth j cands seg0) v
  | Some (pos, dist, k) => exists j, k = (k0 + j)%nat /\ (j < length cands)%nat /\ touch s (nth j cands seg0) pos /\ Z pos = 0 /\ dist = sq pos (sa s) /\
      forall i v, (i < length cands)%nat -> touch s (nth i cands seg0) v -> Z v = 0 -> dist <= sq v (sa s)
  end.
Lemma best_fold (s : seg) : forall cands, exists best, foldM (cutStep s) (O, None) cands = Ok (length cands, best) /\ best_of s cands 0 best.
Proof.
  intros cands. induction cands as [|o cands (best & E & B)] using rev_ind.
  { exists None. split; [reflexivity|]. intros j v H. cbn in H. lia. }
  destruct (inter0 s o) as (m & EI & IO & OI).
  assert (NT : forall j, (j < length cands)%nat -> nth j (cands ++ [o]) seg0 = nth j cands seg0) by (intros j H; apply app_nth1, H).
  assert (NL : nth (length cands) (cands ++ [o]) seg0 = o) by (rewrite app_nth2, Nat.sub_diag by lia; reflexivity).
  exists (match m with None => best | Some pos => match best with Some (_, d, _) => if nltb (Num := Rnum) (sq pos (sa s)) d then Some (pos, sq pos (sa s), length cands) else best | None => Some (pos, sq pos (sa s), length cands) end end).
  rewrite app_length. cbn [length]. rewrite Nat.add_1_r. split.
  { apply foldM_snoc. exists (length cands, best). split; [exact E|]. unfold cutStep. rewrite EI. cbn [bind]. reflexivity. }
  destruct m as [pos|].
  - destruct (IO pos eq_refl) as (T & ZP). destruct best as [[[p d] k]|]; cbn [best_of] in *.
    + destruct B as (j & Ej & Hj & Tj & Zj & Dj & Mj). destruct (nltb (Num := Rnum) (sq pos (sa s)) d) eqn:C.
      * change (Rltb (sq pos (sa s)) d = true) in C. apply Rltb_true in C. cbn [best_of]. exists (length cands). rewrite app_length, NL. cbn [length]. repeat split; try assumption; try lia; try apply T.
        intros i v Hi Ti Zi. destruct (Nat.eq_dec i (length cands)) as [->|NE].
        -- rewrite NL in Ti. destruct (OI v Ti) as (w & Ew & A1 & A2). assert (Q : pos = w) by congruence. subst w. right. apply sq_xy; congruence.
        -- rewrite NT in Ti by lia. specialize (Mj i v ltac:(lia) Ti Zi). lra.
      * change (Rltb (sq pos (sa s)) d = false) in C. apply Rltb_false in C. cbn [best_of]. exists j. rewrite app_length, NT by exact Hj. cbn [length]. repeat split; try assumption; try lia; try apply Tj.
        intros i v Hi Ti Zi. destruct (Nat.eq_dec i (length cands)) as [->|NE].
        -- rewrite NL in Ti. destruct (OI v Ti) as (w & Ew & A1 & A2). assert (Q : pos = w) by congruence. subst w. rewrite (sq_xy v pos) by congruence. exact C.
        -- rewrite NT in Ti by lia. apply (Mj i v); [lia|exact Ti|exact Zi].
    + exists (length cands). rewrite app_length, NL. cbn [length]. repeat split; try assumption; try lia; try apply T.
      intros i v Hi Ti Zi. destruct (Nat.eq_dec i (length cands)) as [->|NE].
      * rewrite NL in Ti. destruct (OI v Ti) as (w & Ew & A1 & A2). assert (Q : pos = w) by congruence. subst w. right. apply sq_xy; congruence.
      * rewrite NT in Ti by lia. exfalso. apply (B i v); [lia|exact Ti].
  - assert (NO : forall v, ~ touch s o v) by (intros v T; destruct (OI v T) as (w & Ew & _); discriminate).
    destruct best as [[[p d] k]|]; cbn [best_of] in *.
    + destruct B as (j & Ej & Hj & Tj & Zj & Dj & Mj). exists j. rewrite app_length, NT by exact Hj. cbn [length]. repeat split; try assumption; try lia; try apply Tj.
      intros i v Hi Ti Zi. destruct (Nat.eq_dec i (length cands)) as [->|NE]; [rewrite NL in Ti; exfalso; exact (NO v Ti)|]. rewrite NT in Ti by lia. apply (Mj i v); [lia|exact Ti|exact Zi].
    + intros j v Hj T. rewrite app_length in Hj. cbn in Hj. destruct (Nat.eq_dec j (length cands)) as [->|NE]; [rewrite NL in T; exact (NO v T)|]. rewrite NT in T by lia. apply (B j v); [lia|exact T].
Qed.

(** ** no crossing: nothing is cut *)
Definition free (l : list seg) : Prop := forall i j v, (S i < j)%nat -> (j < length l)%nat -> ~ (i = 0%nat /\ S j = length l) -> ~ touch (nth i l seg0) (nth j l seg0) v.
Lemma cutLoops_free : forall fuel done rest, (length rest <= fuel)%nat -> free (rev done ++ rest) ->
  cutLoops fuel (match done with [] => true | _ => false end) done rest = Ok (rev done ++ rest).
Proof.
  induction fuel as [|fuel IH]; intros done rest HF FR.
  { destruct rest; [reflexivity|cbn in HF; lia]. }
  destruct rest as [|s r]; [reflexivity|]. cbn [cutLoops].
  set (cands := if (match done with [] => true | _ => false end : bool) then removelast (skipn 1 r) else skipn 1 r).
  assert (LR : length (rev done ++ s :: r) = (length done + S (length r))%nat) by (rewrite app_length, rev_length; reflexivity).
  assert (RM : forall (u : list seg), length (removelast u) = (length u - 1)%nat).
  { intros u. destruct u as [|x u] using rev_ind; [reflexivity|]. rewrite removelast_last, app_length. cbn. lia. }
  assert (RN : forall (u : list seg) j, (j < length (removelast u))%nat -> nth j (removelast u) seg0 = nth j u seg0).
  { intros u j. destruct u as [|x u] using rev_ind; [reflexivity|]. rewrite removelast_last. intros Hj. rewrite app_nth1 by exact Hj. reflexivity. }
  assert (CD : forall j v, (j < length cands)%nat -> ~ touch s (nth j cands seg0) v).
  { intros j v Hj T. apply (FR (length done) (length done + S (S j))%nat v); [lia| | |].
    - rewrite LR. unfold cands in Hj. destruct done; rewrite ?RM, skipn_length in Hj; cbn; lia.
    - rewrite LR. intros [D0 D1]. destruct done; [|discriminate]. unfold cands in Hj. rewrite RM, skipn_length in Hj. cbn in D1. lia.
    - rewrite !app_nth2, rev_length by (rewrite rev_length; lia). rewrite Nat.sub_diag. replace (length done + S (S j) - length done)%nat with (S (S j)) by lia. cbn [nth].
      unfold cands in Hj, T. destruct r as [|s1 r]; [exfalso; destruct done; cbn in Hj; lia|]. cbn [nth skipn] in *. destruct done; [rewrite RN in T by exact Hj|]; exact T. }
  destruct (best_fold s cands) as (best & E & B). rewrite E. cbn [bind snd].
  destruct best as [[[p dd] k]|]; [cbn in B; destruct B as (j & _ & Hj & T & _); exfalso; exact (CD j p Hj T)|].
  specialize (IH (s :: done) r). cbn [rev] in IH. rewrite <- app_assoc in IH. cbn [app] in IH. apply IH; [cbn in HF; lia|exact FR].
Qed.

(** ** in general: what is left has no crossings *)
(* s' is a part of s, in the same direction *)
Definition part (s' s : seg) : Prop := exists t u, 0 <= t <= 1 /\ 0 <= u <= 1 /\
  X (sa s') = X (sa s) + t * (X (sb s) - X (sa s)) /\ Y (sa s') = Y (sa s) + t * (Y (sb s) - Y (sa s)) /\
  X (sb s') = X (sa s) + u * (X (sb s) - X (sa s)) /\ Y (sb s') = Y (sa s) + u * (Y (sb s) - Y (sa s)).
Lemma part_refl s : part s s.
Proof. exists 0, 1. repeat split; lra. Qed.
Lemma part_on s' s v : part s' s -> on_segment v (sa s') (sb s') -> on_segment v (sa s) (sb s).
Proof.
  intros (t & u & Ht & Hu & A1 & A2 & B1 & B2) (r & Hr & C1 & C2). exists (t + r * (u - t)).
  split; [split; nra|]. rewrite C1, C2, A1, A2, B1, B2. split; ring.
Qed.
Lemma part_touch s' s o' o v : part s' s -> part o' o -> touch s' o' v -> touch s o v.
Proof.
  intros PS PO (SP & A & B). split; [|split; [apply (part_on s' s), A; exact PS|apply (part_on o' o), B; exact PO]].
  destruct PS as (t & u & Ht & Hu & A1 & A2 & B1 & B2). destruct PO as (t' & u' & Ht' & Hu' & A1' & A2' & B1' & B2').
  unfold spans in *. rewrite A1, A2, B1, B2, A1', A2', B1', B2' in SP.
  set (K := (X (sb s) - X (sa s)) * (Y (sb o) - Y (sa o)) - (Y (sb s) - Y (sa s)) * (X (sb o) - X (sa o))).
  match type of SP with _ <= Rabs ?e => replace e with (((u - t) * (u' - t')) * K) in SP by (unfold K; ring) end.
  rewrite Rabs_mult in SP. assert (Q : Rabs ((u - t) * (u' - t')) <= 1).
  { rewrite Rabs_mult. assert (Rabs (u - t) <= 1) by (apply Rabs_le; lra). assert (Rabs (u' - t') <= 1) by (apply Rabs_le; lra).
    pose proof (Rabs_pos (u - t)). pose proof (Rabs_pos (u' - t')). nra. }
  pose proof (Rabs_pos K). nra.
Qed.
Lemma part_trans s'' s' s : part s'' s' -> part s' s -> part s'' s.
Proof.
  intros (t' & u' & Ht' & Hu' & A1' & A2' & B1' & B2') (t & u & Ht & Hu & A1 & A2 & B1 & B2).
  exists (t + t' * (u - t)), (t + u' * (u - t)). split; [split; nra|]. split; [split; nra|].
  rewrite A1', A2', B1', B2', A1, A2, B1, B2. repeat split; ring.
Qed.
