(** Ear clipping: the cache is transparent; boundary of the ears. *)
From Coq Require Import List Arith Permutation Lia Bool.
From Verif Require Import Num GeoModel EdgeModel FaceModel FaceSpec FaceComb.
Import ListNotations.
Open Scope nat_scope.

Section Cut.
Context {N : Num}.

(* the search and the loop without a cache *)
Fixpoint searchFresh (points : list vec) (remaining : list nat) (is_ : list nat) : res (option (nat * itri)) :=
  match is_ with
  | [] => Ok None
  | i :: r =>
      e <- earAt points remaining i ;;
      if goodEar points remaining e then Ok (Some (i, ear e)) else searchFresh points remaining r
  end.
Fixpoint cutFresh (rounds : nat) (points : list vec) (remaining : list nat) : res (list itri) :=
  match rounds with
  | O => Ok []
  | S rounds =>
      r <- searchFresh points remaining (seq 0 (length remaining)) ;;
      match r with
      | None => cutFresh rounds points remaining
      | Some (i, t) => ts <- cutFresh rounds points (del remaining i) ;; Ok (t :: ts)
      end
  end.

Lemma upd_length {A} (l : list A) i x : length (upd l i x) = length l.
Proof. revert i; induction l as [|y l IH]; intros [|i]; cbn; auto. Qed.
Lemma nth_upd {A} (l : list A) i x k d : nth k (upd l i x) d = if (k =? i) && (i <? length l) then x else nth k l d.
Proof.
  revert i k; induction l as [|y l IH]; intros i k.
  - destruct i; cbn; rewrite ?andb_false_r; destruct k; reflexivity.
  - destruct i as [|i], k as [|k]; cbn; try reflexivity. rewrite IH. reflexivity.
Qed.
Lemma nth_del {A} (l : list A) i k d : i < length l -> nth k (del l i) d = if k <? i then nth k l d else nth (S k) l d.
Proof.
  revert i k; induction l as [|y l IH]; intros i k L; [cbn in L; lia|].
  destruct i as [|i]; [reflexivity|]. unfold del. cbn [firstn skipn app]. destruct k as [|k]; [reflexivity|].
  cbn [nth]. cbn in L. change (firstn i l ++ match l with [] => [] | _ :: l0 => skipn i l0 end) with (del l i).
  rewrite IH by lia. reflexivity.
Qed.

Definition valid (points : list vec) (rem : list nat) (cache : list (option earInfo)) : Prop :=
  length cache = length rem /\ forall i e, i < length rem -> nth i cache None = Some e -> earAt points rem i = Ok e.

Lemma search_sim points rem is_ : (forall i, In i is_ -> i < length rem) -> forall cache, valid points rem cache ->
  match searchEar points rem cache is_ with
  | Ok (c, r) => searchFresh points rem is_ = Ok r /\ valid points rem c
  | Err e => searchFresh points rem is_ = Err e
  end.
Proof.
  induction is_ as [|i r IH]; intros Hi cache V; [cbn; auto|]. cbn [searchEar searchFresh].
  assert (Li : i < length rem) by (apply Hi; left; reflexivity).
  assert (E : (match nth i cache None with Some e => Ok e | None => earAt points rem i end) = earAt points rem i).
  { destruct (nth i cache None) eqn:E; [|reflexivity]. symmetry. apply V; assumption. }
  rewrite E. destruct (earAt points rem i) as [e|x] eqn:EA; cbn [bind]; [|reflexivity].
  assert (V' : valid points rem (upd cache i (Some e))).
  { destruct V as [VL VV]. split; [rewrite upd_length; exact VL|]. intros k e' Lk. rewrite nth_upd.
    destruct ((k =? i) && (i <? length cache)) eqn:C.
    - apply andb_true_iff in C. destruct C as [C _]. apply Nat.eqb_eq in C. intros K; injection K as <-. subst. exact EA.
    - apply VV. exact Lk. }
  destruct (goodEar points rem e); [auto|]. apply IH; [|exact V']. intros j Hj. apply Hi. right. exact Hj.
Qed.
Lemma search_pos points rem is_ i t : searchFresh points rem is_ = Ok (Some (i, t)) ->
  In i is_ /\ exists e, earAt points rem i = Ok e /\ ear e = t /\ goodEar points rem e = true.
Proof.
  induction is_ as [|j r IH]; cbn; intros H; [discriminate|].
  apply bind_ok in H. destruct H as (e & E & H). destruct (goodEar points rem e) eqn:G.
  - apply Ok_inj in H. injection H as <- <-. split; [left; reflexivity|]. exists e. auto.
  - destruct (IH H) as (I & K). auto.
Qed.
Lemma prev_mod i n : 0 < n -> i < n -> (i + n - 1) mod n = if i =? 0 then n - 1 else i - 1.
Proof.
  intros A B. destruct (Nat.eqb_spec i 0) as [->|K]; [apply Nat.mod_small; lia|].
  replace (i + n - 1) with (i - 1 + 1 * n) by lia. rewrite Nat.mod_add by lia. apply Nat.mod_small. lia.
Qed.
Lemma next_mod i n : 0 < n -> i < n -> S i mod n = if S i =? n then 0 else S i.
Proof.
  intros A B. destruct (Nat.eqb_spec (S i) n) as [->|K]; [apply Nat.mod_same; lia|]. apply Nat.mod_small. lia.
Qed.
Lemma cut_valid points rem cache i : 3 <= length rem -> i < length rem -> valid points rem cache ->
  valid points (del rem i) (cutCache cache i).
Proof.
  intros L3 Li [VL VV]. unfold cutCache.
  assert (DL : length (del cache i) = length rem - 1) by (rewrite del_length; lia).
  assert (DR : length (del rem i) = length rem - 1) by (apply del_length; lia).
  split; [rewrite !upd_length; lia|]. intros k e Lk. rewrite DR in Lk. rewrite !nth_upd, !upd_length, DL.
  set (n := length rem) in *.
  rewrite (proj2 (Nat.ltb_lt (i mod (n - 1)) (n - 1))) by (apply Nat.mod_upper_bound; lia).
  rewrite (proj2 (Nat.ltb_lt ((i + (n - 1) - 1) mod (n - 1)) (n - 1))) by (apply Nat.mod_upper_bound; lia).
  rewrite !andb_true_r. destruct (Nat.eqb_spec k (i mod (n - 1))) as [_|K1]; [discriminate|].
  destruct (Nat.eqb_spec k ((i + (n - 1) - 1) mod (n - 1))) as [_|K2]; [discriminate|].
  rewrite nth_del by lia. intros H.
  set (k' := if k <? i then k else S k).
  assert (Lk' : k' < n) by (unfold k'; destruct (k <? i); lia).
  assert (H' : nth k' cache None = Some e) by (unfold k'; destruct (k <? i); exact H).
  specialize (VV k' e Lk' H'). rewrite <- VV. unfold earAt. fold n. rewrite DR.
  rewrite (prev_mod k (n - 1)) by lia. rewrite (next_mod k (n - 1)) by lia.
  rewrite (prev_mod k' n) by lia. rewrite (next_mod k' n) by lia.
  assert (Hi : i mod (n - 1) = if i =? n - 1 then 0 else i).
  { destruct (Nat.eqb_spec i (n - 1)) as [->|]; [apply Nat.mod_same; lia|apply Nat.mod_small; lia]. }
  rewrite Hi in K1.
  assert (Hp : (i + (n - 1) - 1) mod (n - 1) = if i =? 0 then n - 2 else i - 1).
  { destruct (Nat.eqb_spec i 0) as [->|]; [rewrite Nat.mod_small; lia|].
    replace (i + (n - 1) - 1) with (i - 1 + 1 * (n - 1)) by lia. rewrite Nat.mod_add by lia. apply Nat.mod_small. lia. }
  rewrite Hp in K2.
  assert (E1 : nth (if k =? 0 then n - 1 - 1 else k - 1) (del rem i) 0 = nth (if k' =? 0 then n - 1 else k' - 1) rem 0).
  { rewrite nth_del by (fold n; lia). unfold k' in *. clear -K1 K2 Lk Li L3.
    destruct (Nat.eqb_spec k 0); destruct (Nat.eqb_spec i 0); destruct (Nat.eqb_spec i (n - 1)); destruct (Nat.ltb_spec k i);
      repeat match goal with |- context [Nat.eqb ?a ?b] => destruct (Nat.eqb_spec a b) | |- context [Nat.ltb ?a ?b] => destruct (Nat.ltb_spec a b) end; try lia; f_equal; lia. }
  assert (E2 : nth k (del rem i) 0 = nth k' rem 0).
  { rewrite nth_del by (fold n; lia). unfold k'. destruct (k <? i); reflexivity. }
  assert (E3 : nth (if S k =? n - 1 then 0 else S k) (del rem i) 0 = nth (if S k' =? n then 0 else S k') rem 0).
  { rewrite nth_del by (fold n; lia). unfold k' in *. clear -K1 K2 Lk Li L3.
    destruct (Nat.eqb_spec (S k) (n - 1)); destruct (Nat.eqb_spec i 0); destruct (Nat.eqb_spec i (n - 1)); destruct (Nat.ltb_spec k i);
      repeat match goal with |- context [Nat.eqb ?a ?b] => destruct (Nat.eqb_spec a b) | |- context [Nat.ltb ?a ?b] => destruct (Nat.ltb_spec a b) end; try lia; f_equal; lia. }
  rewrite E1, E2, E3. reflexivity.
Qed.
Lemma cut_sim points rounds : forall rem cache, rounds + 2 <= length rem -> valid points rem cache ->
  cutLoop rounds points rem cache = cutFresh rounds points rem.
Proof.
  induction rounds as [|rounds IH]; intros rem cache L V; [reflexivity|]. cbn [cutLoop cutFresh].
  pose proof (search_sim points rem (seq 0 (length rem)) (fun i Hi => proj2 (proj1 (in_seq _ _ _) Hi)) cache V) as S.
  destruct (searchEar points rem cache (seq 0 (length rem))) as [[c r]|x]; [|rewrite S; reflexivity].
  destruct S as [S V']. rewrite S. cbn [bind]. destruct r as [[i t]|]; [|apply IH; [lia|exact V']].
  apply search_pos in S. destruct S as (I & _). apply in_seq in I.
  rewrite (IH (del rem i)); [reflexivity|rewrite del_length; lia|]. apply cut_valid; [lia|lia|exact V'].
Qed.
(* clipping with the cache is clipping with every test computed afresh *)
Theorem cutEars_fresh points poly : cutEars points poly = cutFresh (length poly - 2) points poly.
Proof.
  unfold cutEars. destruct (le_lt_dec (length poly) 2) as [L|L].
  - replace (length poly - 2) with 0 by lia. reflexivity.
  - apply cut_sim; [lia|]. split; [apply repeat_length|]. intros i e _ H.
    exfalso. revert H. generalize (length poly). intros n. revert i. induction n as [|n IH]; intros i H; [destruct i; discriminate|].
    destruct i; [discriminate|]. exact (IH i H).
Qed.

Lemma earAt_ear points rem i e : earAt points rem i = Ok e ->
  ear e = (nth ((i + length rem - 1) mod length rem) rem 0, nth i rem 0, nth (S i mod length rem) rem 0).
Proof.
  unfold earAt. intros H. apply bind_ok in H. destruct H as (x & _ & H). apply bind_ok in H. destruct H as (y & _ & H).
  apply bind_ok in H. destruct H as (z & _ & H). okinv H. reflexivity.
Qed.

(* the ears and the rest of the polygon, and the vertices still present after each cut *)
Lemma cutFresh_sides points rounds : forall rem ts, rounds + 2 <= length rem -> cutFresh rounds points rem = Ok ts ->
  exists rest ds, length ds = length ts /\ length ts + length rest = length rem /\ length ts <= rounds /\ incl rest rem /\
    Permutation (mesh_sides ts ++ sides rest) (sides rem ++ both_ways ds).
Proof.
  induction rounds as [|rounds IH]; intros rem ts L H; cbn [cutFresh] in H.
  - okinv H. exists rem, []. repeat split; cbn; auto using incl_refl. rewrite app_nil_r. reflexivity.
  - apply bind_ok in H. destruct H as (r & E & H). destruct r as [[i t]|].
    + apply bind_ok in H. destruct H as (ts' & H' & K). okinv K.
      apply search_pos in E. destruct E as (I & e & EA & ET & _). apply in_seq in I.
      apply earAt_ear in EA. rewrite ET in EA.
      destruct (IH (del rem i) ts' ltac:(rewrite del_length; lia) H') as (rest & ds & A1 & A2 & A3 & A4 & A5).
      rewrite del_length in A2 by lia.
      pose proof (cut_sides rem i ltac:(lia) ltac:(lia)) as CS. cbv zeta in CS. rewrite <- EA in CS.
      set (a := nth ((i + length rem - 1) mod length rem) rem 0) in *. set (c := nth (S i mod length rem) rem 0) in *.
      exists rest, ((c, a) :: ds). split; [cbn; lia|]. split; [cbn [length]; lia|]. split; [cbn; lia|].
      split; [intros v Hv; apply (del_incl rem i), A4, Hv|].
      change (mesh_sides (t :: ts')) with (tri_sides t ++ mesh_sides ts').
      change (both_ways ((c, a) :: ds)) with (both_ways [(c, a)] ++ both_ways ds).
      rewrite <- app_assoc, A5, app_assoc, CS, <- app_assoc. reflexivity.
    + destruct (IH rem ts ltac:(lia) H) as (rest & ds & A1 & A2 & A3 & A4 & A5). exists rest, ds. repeat split; auto.
Qed.
(* with n - 2 ears the last diagonal and the two-point rest are the same edge *)
Lemma cutFresh_full points rounds : forall rem ts, length rem = rounds + 2 -> 1 <= rounds -> cutFresh rounds points rem = Ok ts ->
  length ts = rounds -> fills ts (sides rem) (rounds - 1).
Proof.
  induction rounds as [|rounds IH]; intros rem ts L R H F; [lia|]. cbn [cutFresh] in H.
  apply bind_ok in H. destruct H as (r & E & H). destruct r as [[i t]|].
  - apply bind_ok in H. destruct H as (ts' & H' & K). okinv K.
    apply search_pos in E. destruct E as (I & e & EA & ET & _). apply in_seq in I.
    apply earAt_ear in EA. rewrite ET in EA.
    pose proof (cut_sides rem i ltac:(lia) ltac:(lia)) as CS. cbv zeta in CS. rewrite <- EA in CS.
    set (a := nth ((i + length rem - 1) mod length rem) rem 0) in *. set (c := nth (S i mod length rem) rem 0) in *.
    cbn in F. destruct rounds as [|rounds].
    + cbn in H'. okinv H'. exists []. split; [reflexivity|]. cbn [both_ways flat_map]. rewrite app_nil_r.
      destruct rem as [|x [|y [|z [|? ?]]]]; cbn in L; try lia. clear CS. subst a c.
      cbn [length] in I. change (length [x; y; z]) with 3 in EA.
      destruct i as [|[|[|i]]]; [| | |lia]; cbn in EA; subst t; cbn.
      * apply (Permutation_app_comm [(z, x)] [(x, y); (y, z)]).
      * reflexivity.
      * apply (Permutation_app_comm [(y, z); (z, x)] [(x, y)]).
    + destruct (IH (del rem i) ts' ltac:(rewrite del_length; lia) ltac:(lia) H' ltac:(lia)) as (ds & A1 & A2).
      exists ((c, a) :: ds). split; [cbn; lia|].
      change (mesh_sides (t :: ts')) with (tri_sides t ++ mesh_sides ts').
      change (both_ways ((c, a) :: ds)) with (both_ways [(c, a)] ++ both_ways ds).
      rewrite A2, app_assoc, CS, <- app_assoc. reflexivity.
  - exfalso. destruct (cutFresh_sides points rounds rem ts ltac:(lia) H) as (? & ? & _ & _ & K & _). lia.
Qed.

(* every ear is tested against the vertices present when it was cut, among them
   all vertices of later ears *)
Lemma search_ear_in points rem i e : earAt points rem i = Ok e -> i < length rem -> incl (tri_verts (ear e)) rem.
Proof.
  intros H L. rewrite (earAt_ear _ _ _ _ H). intros v [<-|[<-|[<-|[]]]]; apply nth_In; try assumption; apply Nat.mod_upper_bound; lia.
Qed.
Lemma cutFresh_incl points rounds : forall rem ts, cutFresh rounds points rem = Ok ts -> incl (flat_map tri_verts ts) rem.
Proof.
  induction rounds as [|rounds IH]; intros rem ts H; cbn [cutFresh] in H.
  - okinv H. intros v [].
  - apply bind_ok in H. destruct H as (r & E & H). destruct r as [[i t]|]; [|apply (IH _ _ H)].
    apply bind_ok in H. destruct H as (ts' & H' & K). okinv K.
    apply search_pos in E. destruct E as (I & e & EA & ET & _). apply in_seq in I.
    intros v Hv. cbn [flat_map] in Hv. apply in_app_or in Hv. destruct Hv as [Hv|Hv].
    + rewrite <- ET in Hv. apply (search_ear_in points rem i e EA); [lia|exact Hv].
    + apply (del_incl rem i), (IH _ _ H'), Hv.
Qed.
Lemma cutFresh_good points rounds : forall rem ts, cutFresh rounds points rem = Ok ts ->
  forall l1 t l2, ts = l1 ++ t :: l2 -> exists present i e, incl present rem /\ i < length present /\
    earAt points present i = Ok e /\ ear e = t /\ goodEar points present e = true /\ incl (flat_map tri_verts l2) present.
Proof.
  induction rounds as [|rounds IH]; intros rem ts H l1 t l2 D; cbn [cutFresh] in H.
  - okinv H. destruct l1; discriminate.
  - apply bind_ok in H. destruct H as (r & E & H). destruct r as [[i u]|]; [|eapply IH; eauto].
    apply bind_ok in H. destruct H as (ts' & H' & K). okinv K.
    apply search_pos in E. destruct E as (I & e & EA & ET & G). apply in_seq in I.
    destruct l1 as [|w l1]; cbn in D; injection D as -> D.
    + subst l2. exists rem, i, e. split; [apply incl_refl|]. split; [lia|]. split; [exact EA|]. split; [exact ET|]. split; [exact G|].
      intros v Hv. apply (del_incl rem i). apply (cutFresh_incl _ _ _ _ H'). exact Hv.
    + destruct (IH _ _ H' _ _ _ D) as (pr & k & e' & A1 & A2). exists pr, k, e'. split; [|exact A2].
      intros v Hv. apply (del_incl rem i), A1, Hv.
Qed.
End Cut.
