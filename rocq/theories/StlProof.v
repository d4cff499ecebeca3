(** Proofs about the STL writer. *)
From Coq Require Import Ascii String ZArith NArith List Bool Lia.
From Verif Require Import Num GeoModel StlModel.
Import ListNotations.
Open Scope Z_scope.

(* n bytes from offset o *)
Definition slice (o n : nat) (l : bytes) : bytes := firstn n (skipn o l).
(* the number with the given little endian bytes *)
Fixpoint le_value (l : bytes) : Z := match l with [] => 0 | b :: r => b + 256 * le_value r end.

Lemma le_bytes_length n z : length (le_bytes n z) = n.
Proof. revert z. induction n as [|n IH]; intros z; cbn [le_bytes length]; [reflexivity|]. rewrite IH. reflexivity. Qed.
Lemma le_value_bytes n z : 0 <= z < 256 ^ Z.of_nat n -> le_value (le_bytes n z) = z.
Proof.
  revert z. induction n as [|n IH]; intros z H; [cbn in *; lia|].
  cbn [le_bytes le_value]. rewrite Nat2Z.inj_succ, Z.pow_succ_r in H by lia. rewrite IH.
  - pose proof (Z.div_mod z 256). lia.
  - split; [apply Z.div_pos; lia|apply Z.div_lt_upper_bound; lia].
Qed.
Lemma slice_app_r o n (a b : bytes) : (length a <= o)%nat -> slice o n (a ++ b) = slice (o - length a) n b.
Proof. intros H. unfold slice. rewrite skipn_app, skipn_all2 by exact H. reflexivity. Qed.
Lemma slice_app_l o n (a b : bytes) : (o + n <= length a)%nat -> slice o n (a ++ b) = slice o n a.
Proof.
  intros H. unfold slice. rewrite skipn_app, firstn_app, skipn_length.
  replace (n - (length a - o))%nat with 0%nat by lia. rewrite firstn_O, app_nil_r. reflexivity.
Qed.
Lemma slice_0 n (a b : bytes) : length a = n -> slice 0 n (a ++ b) = a.
Proof. intros <-. unfold slice. cbn. rewrite firstn_app, Nat.sub_diag, firstn_all, firstn_O, app_nil_r. reflexivity. Qed.
Lemma skipn_skipn' {A} (a b : nat) (l : list A) : skipn a (skipn b l) = skipn (b + a) l.
Proof. revert l. induction b as [|b IH]; intros l; [reflexivity|]. destruct l; cbn; [destruct a; reflexivity|apply IH]. Qed.
Lemma slice_slice o n p m (l : bytes) : (p + m <= n)%nat -> slice p m (slice o n l) = slice (o + p) m l.
Proof.
  intros H. unfold slice. rewrite skipn_firstn_comm, firstn_firstn, skipn_skipn'. f_equal. lia.
Qed.
(* blocks of equal size *)
Lemma slice_concat k (ls : list bytes) i : (forall l, In l ls -> length l = k) -> (i < length ls)%nat ->
  slice (k * i) k (concat ls) = nth i ls [].
Proof.
  revert i. induction ls as [|l ls IH]; intros i H L; [cbn in L; lia|]. cbn [concat].
  assert (Ll : length l = k) by (apply H; left; reflexivity).
  destruct i as [|i].
  - rewrite Nat.mul_0_r. cbn [nth]. apply slice_0. exact Ll.
  - rewrite slice_app_r by (rewrite Ll; nia). cbn [nth length] in *. rewrite Ll.
    replace (k * S i - k)%nat with (k * i)%nat by nia. apply IH; [|lia]. intros; apply H; right; assumption.
Qed.
Lemma concat_blocks k (ls : list bytes) : (forall l, In l ls -> length l = k) -> length (concat ls) = (k * length ls)%nat.
Proof.
  induction ls as [|l ls IH]; intros H; [cbn; lia|]. cbn [concat length]. rewrite app_length, IH by (intros; apply H; right; assumption). rewrite (H l) by (left; reflexivity). nia.
Qed.
Lemma mapM_length {A B} (f : A -> res B) l ys : mapM f l = Ok ys -> length ys = length l.
Proof. intros H. apply mapM_ok in H. induction H; cbn; congruence. Qed.
Lemma mapM_nth {A B} (f : A -> res B) l ys i d e : mapM f l = Ok ys -> (i < length l)%nat -> f (nth i l d) = Ok (nth i ys e).
Proof.
  intros H. apply mapM_ok in H. revert i. induction H as [|x y l ys Hx H IH]; intros i L; [cbn in L; lia|].
  destruct i as [|i]; [exact Hx|]. cbn in *. apply IH. lia.
Qed.
Lemma mapM_Ok {A B} (f : A -> res B) l : (forall x, In x l -> exists y, f x = Ok y) -> exists ys, mapM f l = Ok ys.
Proof.
  induction l as [|x l IH]; intros H; [eexists; reflexivity|]. destruct (H x (or_introl eq_refl)) as [y E].
  destruct IH as [ys F]; [intros; apply H; right; assumption|]. cbn. rewrite E, F. cbn. eauto.
Qed.

Section P.
Context {N : Num}.
Variable f32 : num -> res bytes.
Hypothesis f32_4 : forall x w, f32 x = Ok w -> length w = 4%nat.
(* the twelve numbers stored for a triangle *)
Definition stored (t : tri) (n : vec) : list num :=
  [vx n; vy n; vz n; vx (ta t); vy (ta t); vz (ta t); vx (tb t); vy (tb t); vz (tb t); vx (tc t); vy (tc t); vz (tc t)].

Lemma triangleBytes_ok t b : triangleBytes f32 t = Ok b -> length b = 50%nat /\ slice 48 2 b = [0; 0] /\
  exists n, tnormal t = Ok n /\ forall k, (k < 12)%nat -> f32 (nth k (stored t n) (nZ 0)) = Ok (slice (4 * k) 4 b).
Proof.
  unfold triangleBytes. intros H. apply bind_ok in H. destruct H as (n & Hn & H). apply bind_ok in H. destruct H as (ws & Hw & H).
  apply Ok_inj in H. subst b. change (mapM f32 (stored t n) = Ok ws) in Hw.
  assert (B : forall w, In w ws -> length w = 4%nat).
  { apply mapM_ok in Hw. induction Hw; [intros ? []|]. intros w [<-|I]; [exact (f32_4 _ _ H)|auto]. }
  pose proof (mapM_length _ _ _ Hw) as L. change (length ws = 12%nat) in L.
  pose proof (concat_blocks 4 ws B) as LC. rewrite L in LC.
  split; [rewrite app_length, LC; reflexivity|]. split; [rewrite slice_app_r by lia; rewrite LC; reflexivity|].
  exists n. split; [exact Hn|]. intros k Hk. rewrite slice_app_l by lia. rewrite slice_concat by (try assumption; lia).
  apply (mapM_nth f32 (stored t n) ws k (nZ 0) [] Hw Hk).
Qed.
Lemma toBytes_ok v ts bs : (length (list_ascii_of_string v) <= 61)%nat -> toBytes f32 v ts = Ok bs ->
  length bs = (84 + 50 * length ts)%nat /\
  slice 0 80 bs = repeat 0 (61 - length (list_ascii_of_string v)) ++ ascii_bytes " Made with chrumm " ++ ascii_bytes v ++ ascii_bytes " " /\
  le_value (slice 80 4 bs) = Z.of_nat (length ts) /\
  forall i d, (i < length ts)%nat -> triangleBytes f32 (nth i ts d) = Ok (slice (84 + 50 * i) 50 bs).
Proof.
  intros LV. unfold toBytes. cbv zeta. set (hd := ascii_bytes " Made with chrumm " ++ ascii_bytes v ++ ascii_bytes " "). set (h := repeat 0 (80 - length hd) ++ hd).
  assert (LH : length hd = (19 + length (list_ascii_of_string v))%nat).
  { unfold hd. rewrite !app_length. assert (E : length (ascii_bytes v) = length (list_ascii_of_string v)) by apply map_length. rewrite E.
    change (length (ascii_bytes " Made with chrumm ")) with 18%nat. change (length (ascii_bytes " ")) with 1%nat. lia. }
  assert (Lh : length h = 80%nat). { unfold h. rewrite app_length, repeat_length. lia. }
  assert (Eh : h = repeat 0 (61 - length (list_ascii_of_string v)) ++ hd). { unfold h. rewrite LH. f_equal. }
  clearbody h. intros H. apply bind_ok in H. destruct H as (c & Hc & H). apply bind_ok in H. destruct H as (body & Hb & H). apply Ok_inj in H. subst bs.
  destruct (Z.ltb_spec (Z.of_nat (length ts)) 4294967296) as [LT|]; [|discriminate]. apply Ok_inj in Hc. subst c.
  assert (B : forall b, In b body -> length b = 50%nat).
  { clear LT. apply mapM_ok in Hb. induction Hb; [intros ? []|]. intros w [<-|I]; [exact (proj1 (triangleBytes_ok _ _ H))|exact (IHHb _ I)]. }
  pose proof (mapM_length _ _ _ Hb) as L. pose proof (concat_blocks 50 body B) as LC.
  split; [rewrite !app_length, LC, le_bytes_length, Lh, L; lia|]. split; [rewrite slice_0 by exact Lh; exact Eh|].
  split.
  - rewrite slice_app_r by lia. rewrite Lh. rewrite slice_0 by apply le_bytes_length. apply le_value_bytes. cbn. lia.
  - intros i d Hi. rewrite slice_app_r by lia. rewrite slice_app_r by (rewrite le_bytes_length; lia). rewrite Lh, le_bytes_length.
    replace (84 + 50 * i - 80 - 4)%nat with (50 * i)%nat by lia. rewrite slice_concat by (try assumption; lia).
    apply (mapM_nth (triangleBytes f32) ts body i d [] Hb Hi).
Qed.
End P.
