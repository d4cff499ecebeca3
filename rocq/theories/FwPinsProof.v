(** Reading the key matrix. *)
From Coq Require Import List ZArith Bool Lia.
From Verif Require Import FwModel FwPins.
Import ListNotations.
Open Scope nat_scope.

Section Matrix.
Variable rowPins colPins : list nat.
Hypothesis ND : NoDup (rowPins ++ colPins).
(* between the ticks: all rows are driven high, all columns are inputs with a pull-up *)
Definition idle (g : pins) : Prop := (forall p, In p rowPins -> p_out g p = true /\ p_level g p = true) /\ (forall p, In p colPins -> p_out g p = false /\ p_pull g p = true).
Lemma apart p q : In p rowPins -> In q colPins -> p <> q.
Proof. intros I J E. subst q. clear - ND I J. induction rowPins as [|a l IH]; [destruct I|]. cbn in ND. inversion ND; subst. destruct I as [->|I]; [apply H1, in_app_iff; auto|auto]. Qed.
Lemma nd_rows : NoDup rowPins.
Proof. clear - ND. induction rowPins as [|a l IH]; [constructor|]. cbn in ND. inversion ND; subst. constructor; [intros I; apply H1, in_app_iff; auto|auto]. Qed.
Lemma nd_cols : NoDup colPins.
Proof. clear - ND. induction rowPins as [|a l IH]; [exact ND|]. inversion ND; auto. Qed.
Lemma upd_eq f i b : upd f i b i = b. Proof. unfold upd. rewrite Nat.eqb_refl. reflexivity. Qed.
Lemma upd_ne f i b j : j <> i -> upd f i b j = f j. Proof. unfold upd. intros N. destruct (Nat.eqb_spec j i); [contradiction|reflexivity]. Qed.

Lemma rows_init l : forall g, let g' := fold_left (fun g pin => gpio_put pin true (gpio_set_dir pin true (gpio_init pin g))) l g in
  (forall p, In p l -> p_out g' p = true /\ p_level g' p = true) /\ (forall p, ~ In p l -> p_out g' p = p_out g p /\ p_level g' p = p_level g p).
Proof.
  induction l as [|a l IH]; intros g; [split; [intros p []|auto]|]. cbn [fold_left]. cbv zeta in *. specialize (IH (gpio_put a true (gpio_set_dir a true (gpio_init a g)))). set (g1 := gpio_put a _ _) in *. destruct IH as (I1 & I2). split.
  - intros p [->|J]; [|apply I1, J]. destruct (in_dec Nat.eq_dec p l) as [J|J]; [apply I1, J|]. destruct (I2 p J) as (-> & ->). unfold g1, gpio_put, gpio_set_dir. cbn [p_out p_level]. rewrite !upd_eq. auto.
  - intros p J. destruct (I2 p) as (-> & ->); [intros K; apply J; right; exact K|]. assert (NA : p <> a) by (intros ->; apply J; left; reflexivity).
    unfold g1, gpio_put, gpio_set_dir, gpio_init. cbn [p_out p_level]. rewrite !upd_ne by exact NA. auto.
Qed.
Lemma cols_init l : forall g, let g' := fold_left (fun g pin => gpio_pull_up pin (gpio_set_dir pin false (gpio_init pin g))) l g in
  (forall p, In p l -> p_out g' p = false /\ p_pull g' p = true) /\ (forall p, ~ In p l -> p_out g' p = p_out g p /\ p_level g' p = p_level g p /\ p_pull g' p = p_pull g p) /\ (forall p, p_pull g p = true -> p_pull g' p = true).
Proof.
  induction l as [|a l IH]; intros g; [split; [intros p []|auto]|]. cbn [fold_left]. cbv zeta in *. specialize (IH (gpio_pull_up a (gpio_set_dir a false (gpio_init a g)))). set (g1 := gpio_pull_up a _) in *. destruct IH as (I1 & I2 & I3).
  assert (PM : forall p, p_pull g p = true -> p_pull g1 p = true) by (intros p Hp; unfold g1, gpio_pull_up, gpio_set_dir, gpio_init; cbn [p_pull]; unfold upd; destruct (Nat.eqb p a); auto). split; [|split].
  - intros p [->|J]; [|apply I1, J]. destruct (in_dec Nat.eq_dec p l) as [J|J]; [apply I1, J|]. destruct (I2 p J) as (-> & _ & ->). unfold g1, gpio_pull_up, gpio_set_dir. cbn [p_out p_pull]. rewrite !upd_eq. auto.
  - intros p J. destruct (I2 p) as (-> & -> & ->); [intros K; apply J; right; exact K|]. assert (NA : p <> a) by (intros ->; apply J; left; reflexivity).
    unfold g1, gpio_pull_up, gpio_set_dir, gpio_init. cbn [p_out p_level p_pull]. rewrite !upd_ne by exact NA. auto.
  - intros p Hp. apply I3, PM, Hp.
Qed.
Lemma init_idle g : idle (matrix_init rowPins colPins g).
Proof.
  unfold matrix_init. set (g1 := fold_left _ rowPins g). destruct (rows_init rowPins g) as (R1 & _). fold g1 in R1. destruct (cols_init colPins g1) as (C1 & C2 & _). split; [|exact C1].
  intros p I. destruct (C2 p) as (-> & -> & _); [intros J; exact (apart p p I J eq_refl)|apply R1, I].
Qed.
(** ** one row *)
Variable closed : nat -> nat -> nat -> bool.
Variable floating : nat -> bool.
Lemma in_numbered (l : list nat) i p : In (i, p) (combine (seq 0 (length l)) l) <-> nth_error l i = Some p.
Proof.
  assert (G : forall (l : list nat) a i p, In (i, p) (combine (seq a (length l)) l) <-> (a <= i /\ nth_error l (i - a) = Some p)).
  { clear. induction l as [|x l IH]; intros a i p; cbn [length seq combine In]; [split; [intros []|intros (_ & H); destruct (i - a); discriminate]|]. rewrite (IH (S a) i p). split.
    - intros [E|(L & H)]; [injection E as -> ->; split; [lia|]; rewrite Nat.sub_diag; reflexivity|]. split; [lia|]. replace (i - a) with (S (i - S a)) by lia. exact H.
    - intros (L & H). destruct (Nat.eq_dec i a) as [->|N]; [left; rewrite Nat.sub_diag in H; injection H as ->; reflexivity|]. right. split; [lia|]. replace (i - a) with (S (i - S a)) in H by lia. exact H. }
  rewrite G, Nat.sub_0_r. intuition lia.
Qed.
Lemma nth_unique (l : list nat) i j p : NoDup l -> nth_error l i = Some p -> nth_error l j = Some p -> i = j.
Proof. intros N Hi Hj. apply (NoDup_nth_error l); [exact N|apply nth_error_Some; congruence|congruence]. Qed.
(* row r is low, the others are high *)
Definition selected (r : nat) (g : pins) : Prop := (forall i p, nth_error rowPins i = Some p -> p_out g p = true /\ p_level g p = negb (Nat.eqb i r)) /\ (forall p, In p colPins -> p_out g p = false /\ p_pull g p = true).
Lemma get_selected r g c pin cl fl : selected r g -> (r < length rowPins)%nat -> nth_error colPins c = Some pin -> gpio_get rowPins colPins cl fl g pin = negb (cl r c).
Proof.
  intros (S1 & S2) L Hc. unfold gpio_get. destruct (S2 pin (nth_error_In _ _ Hc)) as (-> & ->).
  assert (E : grounded rowPins colPins cl g pin = cl r c); [|rewrite E; destruct (cl r c); reflexivity].
  apply eq_true_iff_eq. unfold grounded. rewrite existsb_exists. split.
  - intros ((i & p) & I & H). apply in_numbered in I. apply andb_prop in H. destruct H as (H & LV). apply andb_prop in H. destruct H as (H & _). cbn [fst snd] in *. destruct (S1 i p I) as (_ & E). rewrite E, negb_involutive in LV. apply Nat.eqb_eq in LV. subst i.
    apply existsb_exists in H. destruct H as ((j & q) & J & H). apply in_numbered in J. apply andb_prop in H. destruct H as (E1 & H). cbn [fst snd] in *. apply Nat.eqb_eq in E1. subst q. rewrite (nth_unique _ _ _ _ nd_cols J Hc) in H. exact H.
  - intros H. destruct (nth_error rowPins r) as [p|] eqn:Er; [|apply nth_error_None in Er; lia]. exists (r, p). split; [apply in_numbered; exact Er|]. destruct (S1 r p Er) as (O & E). cbn [fst snd]. rewrite O, E, Nat.eqb_refl. cbn [negb andb]. rewrite !andb_true_r.
    apply existsb_exists. exists (c, pin). split; [apply in_numbered; exact Hc|]. cbn [fst snd]. rewrite Nat.eqb_refl, H. reflexivity.
Qed.
Lemma read_row r g : selected r g -> (r < length rowPins)%nat -> forall cols c t, (forall i, nth_error cols i = nth_error colPins (c + i)) -> readRow rowPins colPins closed floating g t cols = map (fun i => negb (closed (t + i) r (c + i))) (seq 0 (length cols)).
Proof.
  intros S L. induction cols as [|pin cols IH]; intros c t H; [reflexivity|]. cbn [readRow length seq map]. f_equal.
  - rewrite !Nat.add_0_r. apply (get_selected r); [exact S|exact L|]. specialize (H 0%nat). rewrite Nat.add_0_r in H. symmetry. exact H.
  - rewrite (IH (Datatypes.S c) (Datatypes.S t)); [|intros i; specialize (H (Datatypes.S i)); cbn [nth_error] in H; rewrite H; f_equal; lia].
    rewrite <- seq_shift, map_map. apply map_ext. intros i. f_equal. rewrite !Nat.add_succ_r. reflexivity.
Qed.
Lemma select r p g : idle g -> nth_error rowPins r = Some p -> selected r (gpio_put p false g).
Proof.
  intros (I1 & I2) H. split.
  - intros i q Hi. destruct (I1 q (nth_error_In _ _ Hi)) as (O & L). unfold gpio_put. cbn [p_out p_level]. split; [exact O|]. destruct (Nat.eqb_spec i r) as [->|N].
    + rewrite H in Hi. injection Hi as <-. apply upd_eq.
    + rewrite upd_ne; [exact L|]. intros ->. apply N. exact (nth_unique _ _ _ _ nd_rows Hi H).
  - intros q J. unfold gpio_put. cbn [p_out p_pull]. apply I2, J.
Qed.
Lemma put_back p g : idle g -> In p rowPins -> let g' := gpio_put p true (gpio_put p false g) in idle g' /\ forall q, p_out g' q = p_out g q /\ p_level g' q = p_level g q /\ p_pull g' q = p_pull g q.
Proof.
  intros (I1 & I2) J g'. assert (E : forall q, p_out g' q = p_out g q /\ p_level g' q = p_level g q /\ p_pull g' q = p_pull g q).
  { intros q. unfold g', gpio_put. cbn [p_out p_level p_pull]. split; [reflexivity|]. split; [|reflexivity]. unfold upd. destruct (Nat.eqb_spec q p) as [->|N]; [symmetry; apply (I1 p J)|reflexivity]. }
  split; [|exact E]. split; intros q K; destruct (E q) as (E1 & E2 & E3).
  - rewrite E1, E2. apply I1, K.
  - rewrite E1, E3. apply I2, K.
Qed.
Definition expected (t r : nat) : list bool := map (fun c => negb (closed (t + c) r c)) (seq 0 (length colPins)).
Lemma read_rows : forall rows r t g, (forall i, nth_error rows i = nth_error rowPins (r + i)) -> idle g ->
  exists g', readRows rowPins colPins closed floating g t rows = (g', flat_map (fun i => expected (t + i * length colPins) (r + i)) (seq 0 (length rows))) /\ idle g' /\ forall q, p_out g' q = p_out g q /\ p_level g' q = p_level g q /\ p_pull g' q = p_pull g q.
Proof.
  induction rows as [|p rows IH]; intros r t g H I; [exists g; cbn; auto|]. cbn [readRows]. cbv zeta.
  assert (HP : nth_error rowPins r = Some p) by (specialize (H 0%nat); rewrite Nat.add_0_r in H; symmetry; exact H).
  assert (L : (r < length rowPins)%nat) by (apply nth_error_Some; congruence).
  destruct (put_back p g I (nth_error_In _ _ HP)) as (I' & E'). cbv zeta in I', E'.
  destruct (IH (S r) (t + length colPins) (gpio_put p true (gpio_put p false g))) as (g' & R & J & E); [intros i; specialize (H (S i)); cbn [nth_error] in H; rewrite H; f_equal; lia|exact I'|].
  rewrite R. exists g'. split; [|split; [exact J|intros q; destruct (E q) as (-> & -> & ->); apply E']]. f_equal. cbn [length seq flat_map]. f_equal.
  - rewrite Nat.mul_0_l, !Nat.add_0_r. rewrite (read_row r _ (select r p g I HP) L colPins 0 t) by reflexivity. reflexivity.
  - rewrite <- seq_shift, flat_map_concat_map, flat_map_concat_map, map_map. f_equal. apply map_ext. intros i. f_equal; lia.
Qed.
End Matrix.
