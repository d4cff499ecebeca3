(** Combinatorics of hole merging and ear clipping. *)
From Coq Require Import List Arith Permutation Lia Bool.
From Verif Require Import Num GeoModel EdgeModel FaceModel FaceSpec.
Import ListNotations.
Open Scope nat_scope.

(* consecutive pairs *)
Fixpoint opn (l : list nat) : list dedge :=
  match l with a :: ((b :: _) as r) => (a, b) :: opn r | _ => [] end.
Lemma opn_app l1 a l2 : opn (l1 ++ a :: l2) = opn (l1 ++ [a]) ++ opn (a :: l2).
Proof.
  induction l1 as [|b l1 IH]; [reflexivity|]. destruct l1 as [|c l1]; [reflexivity|].
  cbn [app] in *. change (opn (b :: c :: l1 ++ a :: l2)) with ((b, c) :: opn (c :: l1 ++ a :: l2)).
  rewrite IH. reflexivity.
Qed.
Lemma sides_opn l d : l <> [] -> sides l = opn (l ++ [hd d l]).
Proof.
  destruct l as [|a r]; [contradiction|]. intros _. cbn [sides hd app].
  enough (H : forall b, combine (b :: r) (r ++ [a]) = opn (b :: r ++ [a])) by apply H.
  induction r as [|c r IH]; intros b; [reflexivity|]. cbn [app]. change (combine (b :: c :: r) (c :: r ++ [a])) with ((b, c) :: combine (c :: r) (r ++ [a])).
  rewrite IH. reflexivity.
Qed.
Lemma hd_app_ne {A} (d : A) l1 l2 : l1 <> [] -> hd d (l1 ++ l2) = hd d l1.
Proof. destruct l1; [contradiction|reflexivity]. Qed.
Lemma sides_rot l1 l2 : Permutation (sides (l1 ++ l2)) (sides (l2 ++ l1)).
Proof.
  destruct l1 as [|a l1]; [rewrite app_nil_r; reflexivity|].
  destruct l2 as [|b l2]; [rewrite app_nil_r; reflexivity|].
  rewrite !(sides_opn _ 0) by discriminate. cbn [hd app].
  rewrite <- !app_assoc. cbn [app].
  change (a :: l1 ++ b :: l2 ++ [a]) with ((a :: l1) ++ b :: (l2 ++ [a])).
  change (b :: l2 ++ a :: l1 ++ [b]) with ((b :: l2) ++ a :: (l1 ++ [b])).
  rewrite (opn_app (a :: l1) b), (opn_app (b :: l2) a). cbn [app].
  apply Permutation_app_comm.
Qed.
Lemma sides_length l : length (sides l) = length l.
Proof. destruct l as [|a r]; [reflexivity|]. unfold sides. unfold dedge. change (length (combine (a :: r) (r ++ [a])) = S (length r)). rewrite combine_length, app_length. cbn [length]. lia. Qed.

(** ** splicing *)
Lemma del_rot {A} (l : list A) i d : i < length l ->
  l = firstn i l ++ nth i l d :: skipn (S i) l.
Proof.
  revert i; induction l as [|x l IH]; intros i L; [cbn in L; lia|]. destruct i as [|i]; [reflexivity|].
  cbn in *. f_equal. apply IH. lia.
Qed.
Lemma splice_sides poly vis hole : vis < length poly -> hole <> [] ->
  Permutation (sides (spliceHole poly vis hole))
    (sides poly ++ sides hole ++ both_ways [(nth vis poly 0, hd 0 hole)]).
Proof.
  intros L H. unfold spliceHole. set (A := firstn vis poly). set (v := nth vis poly 0). set (h := hd 0 hole).
  assert (E : poly = A ++ v :: skipn (S vis) poly).
  { apply del_rot. exact L. }
  assert (E2 : skipn vis poly = v :: skipn (S vis) poly).
  { rewrite E at 1. unfold A. rewrite skipn_app, firstn_length, (Nat.min_l vis) by lia.
    rewrite skipn_all2 by (rewrite firstn_length; lia). rewrite Nat.sub_diag. reflexivity. }
  rewrite E2. set (B := skipn (S vis) poly) in *.
  destruct hole as [|h' hr]; [contradiction|]. subst h. cbn [hd].
  assert (HD : exists w r, A ++ [v] = w :: r). { destruct A; cbn; eauto. } destruct HD as (w & r & HD).
  assert (P1 : hd 0 poly = w). { rewrite E. change (v :: B) with ([v] ++ B). rewrite app_assoc, HD. reflexivity. }
  rewrite (sides_opn poly 0) by (rewrite E; destruct A; discriminate). rewrite P1.
  rewrite (sides_opn (A ++ [v] ++ (h' :: hr) ++ [h'] ++ v :: B) 0) by (destruct A; discriminate).
  rewrite (app_assoc A), HD. cbn [hd app].
  rewrite (sides_opn (h' :: hr) 0) by discriminate. cbn [hd].
  rewrite E at 1.
  replace (w :: (r ++ h' :: hr ++ h' :: v :: B) ++ [w]) with (A ++ v :: (h' :: hr ++ h' :: v :: B ++ [w])).
  2:{ change (w :: (r ++ h' :: hr ++ h' :: v :: B) ++ [w]) with ((w :: r) ++ (h' :: hr ++ h' :: v :: B) ++ [w]) || idtac.
      assert (Q : A ++ v :: h' :: hr ++ h' :: v :: B ++ [w] = (A ++ [v]) ++ h' :: hr ++ h' :: v :: B ++ [w]) by (rewrite <- app_assoc; reflexivity).
      rewrite Q, HD. cbn [app]. rewrite <- app_assoc. cbn [app]. rewrite <- app_assoc. reflexivity. }
  rewrite (opn_app A v). change (opn (v :: h' :: hr ++ h' :: v :: B ++ [w])) with ((v, h') :: opn ((h' :: hr) ++ h' :: v :: B ++ [w])).
  rewrite (opn_app (h' :: hr) h'). change (opn (h' :: v :: B ++ [w])) with ((h', v) :: opn (v :: B ++ [w])).
  rewrite <- app_assoc. cbn [app]. rewrite (opn_app A v (B ++ [w])). cbn [both_ways flat_map back fst snd app].
  set (o1 := opn (A ++ [v])). set (o2 := opn (h' :: hr ++ [h'])). set (o3 := opn (v :: B ++ [w])).
  rewrite <- app_assoc. apply Permutation_app_head.
  transitivity ((v, h') :: (h', v) :: o2 ++ o3).
  - constructor. symmetry. apply Permutation_middle.
  - transitivity ((o2 ++ o3) ++ [(v, h'); (h', v)]).
    + rewrite (Permutation_app_comm (o2 ++ o3)). reflexivity.
    + rewrite (Permutation_app_comm o2 o3), <- app_assoc. reflexivity.
Qed.
Lemma splice_length poly vis hole : vis < length poly ->
  length (spliceHole poly vis hole) = length poly + length hole + 2.
Proof.
  intros L. unfold spliceHole. rewrite !app_length, firstn_length, skipn_length. cbn. lia.
Qed.

(** ** cutting one corner *)
Lemma hd_skip {A} (l : list A) i d : hd d (skipn i l ++ firstn i l) = nth (i mod length l) l d \/ l = [] \/ length l < i.
Proof.
  destruct (le_lt_dec i (length l)) as [L|L]; [|auto]. destruct l as [|x l]; [auto|]. left.
  destruct (Nat.eq_dec i (length (x :: l))) as [->|NE].
  - rewrite skipn_all, firstn_all, Nat.mod_same by discriminate. reflexivity.
  - rewrite Nat.mod_small by (unfold lt; lia). assert (K : i < length (x :: l)) by lia.
    generalize (x :: l) K. clear. intros l. revert i. induction l as [|x l IH]; intros i K; [cbn in K; lia|].
    destruct i; [reflexivity|]. cbn [skipn nth]. cbn in K. specialize (IH i ltac:(lia)).
    rewrite hd_app_ne in IH |- *; [exact IH| |];
      intros C; apply (f_equal (@length A)) in C; rewrite skipn_length in C; cbn in C; lia.
Qed.
Lemma last_skip {A} (l : list A) i d : i < length l -> 1 < length l ->
  last (skipn (S i) l ++ firstn i l) d = nth ((i + length l - 1) mod length l) l d.
Proof.
  intros L1 L2. destruct i as [|i].
  - cbn [firstn]. rewrite app_nil_r. rewrite Nat.mod_small by lia. destruct l as [|x l]; [cbn in *; lia|]. cbn [skipn].
    replace (0 + length (x :: l) - 1) with (S (length l - 1)) by (cbn in *; lia). cbn [nth].
    clear L1. cbn in L2. revert L2. induction l as [|y l IH]; [cbn; lia|]. intros _. destruct l as [|z l]; [reflexivity|].
    change (last (y :: z :: l) d) with (last (z :: l) d). rewrite IH by (cbn; lia). cbn [length]. replace (S (S (length l)) - 1) with (S (S (length l) - 1)) by lia. reflexivity.
  - replace (S i + length l - 1) with (i + 1 * length l) by lia. rewrite Nat.mod_add by lia. rewrite Nat.mod_small by lia.
    assert (E : firstn (S i) l = firstn i l ++ [nth i l d]).
    { clear L2. revert i L1. induction l as [|x l IH]; intros i K; [cbn in K; lia|]. destruct i; [reflexivity|].
      change (firstn (S (S i)) (x :: l)) with (x :: firstn (S i) l). cbn in K. rewrite IH by lia. reflexivity. }
    rewrite E, app_assoc. apply last_last.
Qed.
Lemma cut_sides l i : i < length l -> 2 <= length l ->
  let n := length l in
  let a := nth ((i + n - 1) mod n) l 0 in let b := nth i l 0 in let c := nth (S i mod n) l 0 in
  Permutation (tri_sides (a, b, c) ++ sides (del l i)) (sides l ++ both_ways [(c, a)]).
Proof.
  intros L1 L2 n a b c. rewrite (del_rot l i 0 L1) at 2. fold b.
  rewrite (sides_rot (firstn i l)). unfold del. rewrite (sides_rot (firstn i l)).
  pose proof (last_skip l i 0 L1 ltac:(lia)) as HL. fold n a in HL.
  assert (HH : hd 0 (skipn (S i) l ++ firstn i l) = c).
  { destruct (Nat.eq_dec (S i) n) as [E|NE].
    - unfold c. rewrite E, Nat.mod_same by lia. rewrite <- E at 1. rewrite skipn_all2 by (unfold n in *; lia).
      cbn [app]. destruct i; [unfold n in *; lia|]. destruct l; [cbn in *; lia|]. reflexivity.
    - unfold c. rewrite Nat.mod_small by lia. pose proof (hd_skip l (S i) 0) as [K|[K|K]].
      + rewrite Nat.mod_small in K by (unfold n in *; lia). rewrite hd_app_ne in K |- *. exact K. all: intros C; apply (f_equal (@length _)) in C; rewrite skipn_length in C; cbn in C; unfold n in *; lia.
      + subst l. cbn in *; lia.
      + unfold n in *; lia. }
  assert (NE : skipn (S i) l ++ firstn i l <> []).
  { intros C. apply (f_equal (@length _)) in C. rewrite app_length, skipn_length, firstn_length in C. cbn in C. lia. }
  change ((b :: skipn (S i) l) ++ firstn i l) with (b :: (skipn (S i) l ++ firstn i l)).
  set (M := skipn (S i) l ++ firstn i l) in *. clearbody M. clear -HL HH NE.
  rewrite (sides_opn M 0) by assumption. rewrite HH.
  rewrite (sides_opn (b :: M) 0) by discriminate. cbn [hd].
  assert (EM : exists M', M = M' ++ [a]). { destruct (exists_last NE) as (M' & z & ->). rewrite last_last in HL. subst. eauto. }
  destruct EM as (M' & ->). clear HL. rewrite <- (app_assoc M' [a] [c]). change ([a] ++ [c]) with [a; c].
  rewrite (opn_app M' a [c]). 
  assert (B1 : opn ((b :: M' ++ [a]) ++ [b]) = (b, c) :: opn (M' ++ [a]) ++ [(a, b)]).
  { cbn [app]. rewrite <- app_assoc. cbn [app]. destruct M' as [|m M']; cbn in HH; [rewrite <- HH; reflexivity|rewrite HH; cbn [app]].
    change (opn (b :: c :: M' ++ [a; b])) with ((b, c) :: opn ((c :: M') ++ a :: [b])). rewrite opn_app. reflexivity. }
  rewrite B1. cbn [tri_sides opn app both_ways flat_map back fst snd].
  set (o := opn (M' ++ [a])).
  transitivity ((b, c) :: (a, b) :: (c, a) :: o ++ [(a, c)]); [apply perm_swap|].
  constructor. rewrite <- app_assoc. change ((a, b) :: (c, a) :: o ++ [(a, c)]) with ([(a, b); (c, a)] ++ o ++ [(a, c)]).
  rewrite app_assoc, (Permutation_app_comm [(a, b); (c, a)] o), <- app_assoc. reflexivity.
Qed.
Lemma del_length {A} (l : list A) i : i < length l -> length (del l i) = length l - 1.
Proof. intros L. unfold del. rewrite app_length, firstn_length, skipn_length. lia. Qed.
Lemma del_incl {A} (l : list A) i : incl (del l i) l.
Proof.
  intros x H. unfold del in H. apply in_app_or in H. rewrite <- (firstn_skipn i l). apply in_or_app.
  destruct H as [H|H]; [auto|right]. rewrite <- (firstn_skipn 1 (skipn i l)). apply in_or_app. right.
  revert H. change 1 with (S O). clear. revert i. induction l as [|y l IH]; intros i H; [destruct i; exact H|].
  destruct i; [exact H|]. apply (IH i). exact H.
Qed.
