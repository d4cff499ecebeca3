(** Proofs about the command line. *)
From Coq Require Import Ascii String ZArith List Bool Lia.
From Verif Require Import Num FaceModel FaceComb MainModel MainSpec.
Import ListNotations.
Open Scope string_scope.

Definition longs := ["help"; "version"; "log="; "threads="; "knob"].
(* what getopt's pairs of name and argument stand for *)
Definition meaning (na : string * string) : option opt :=
  let '(n, a) := na in
  if String.eqb n "-h" || String.eqb n "--help" then Some Help
  else if String.eqb n "--version" then Some Version
  else if String.eqb n "--log" then Some (Log a)
  else if String.eqb n "--threads" then Some (Threads a)
  else if String.eqb n "--knob" then Some Knob
  else None.

Lemma app_nil_s s : s ++ "" = s.
Proof. induction s as [|c s IH]; cbn; [reflexivity|rewrite IH; reflexivity]. Qed.
Lemma app_assoc_s a b c : (a ++ b) ++ c = a ++ (b ++ c).
Proof. induction a as [|x a IH]; cbn; [reflexivity|rewrite IH; reflexivity]. Qed.
Lemma prefix_app p r : String.prefix p (p ++ r) = true.
Proof. induction p as [|c p IH]; cbn; [destruct r; reflexivity|]. destruct (ascii_dec c c); [exact IH|congruence]. Qed.
Lemma prefix_split p : forall s, String.prefix p s = true -> exists r, s = p ++ r.
Proof.
  induction p as [|c p IH]; intros s H; [exists s; reflexivity|]. destruct s as [|d s]; [discriminate|]. cbn in H. destruct (ascii_dec c d) as [<-|]; [|discriminate].
  destruct (IH s H) as (r & ->). exists r. reflexivity.
Qed.
Lemma free_app c a b : free_of c (a ++ b) <-> free_of c a /\ free_of c b.
Proof. induction a as [|d a IH]; cbn; [tauto|]. rewrite IH. tauto. Qed.

Lemma splitEq_some a v : free_of "=" a -> splitEq (a ++ "=" ++ v) = Some (a, v).
Proof.
  induction a as [|c a IH]; intros H; [reflexivity|]. destruct H as [NE F]. change (String c a ++ "=" ++ v) with (String c (a ++ "=" ++ v)). cbn [splitEq]. destruct (Ascii.eqb_spec c "="); [contradiction|]. rewrite IH by exact F. reflexivity.
Qed.
Lemma splitEq_none a : free_of "=" a -> splitEq a = None.
Proof. induction a as [|c a IH]; intros H; [reflexivity|]. destruct H as [NE F]. cbn. destruct (Ascii.eqb_spec c "="); [contradiction|]. rewrite IH by exact F. reflexivity. Qed.
Lemma splitEq_inv s : match splitEq s with Some (a, v) => s = a ++ "=" ++ v /\ free_of "=" a | None => free_of "=" s end.
Proof.
  induction s as [|c s IH]; cbn; [exact I|]. destruct (Ascii.eqb_spec c "=") as [->|NE]; [split; [reflexivity|exact I]|].
  destruct (splitEq s) as [[a v]|]; [|split; assumption]. destruct IH as [-> F]. split; [reflexivity|]. cbn. auto.
Qed.

Definition words : list (bool * string) := [(false, "help"); (false, "version"); (true, "log"); (true, "threads"); (false, "knob")].
Lemma abbr_long p b w : In (b, w) words -> abbreviates p w -> free_of "=" p /\ longHasArgs p longs = Ok (b, w).
Proof.
  intros Hin (NE & r & E).
  assert (Q : p = substring 0 (String.length p) w).
  { rewrite E. symmetry. apply String.prefix_correct. apply prefix_app. }
  assert (L : (String.length p <= String.length w)%nat) by (rewrite E; clear; induction p; cbn; lia).
  destruct (String.length p) as [|[|[|[|[|[|[|[|n]]]]]]]];
  destruct Hin as [K|[K|[K|[K|[K|[]]]]]]; injection K as <- <-; cbn in L; try lia; subst p; cbn in NE; try congruence; (split; [cbn; intuition discriminate|reflexivity]).
Qed.
Lemma long_abbr p b w : free_of "=" p -> longHasArgs p longs = Ok (b, w) -> In (b, w) words /\ abbreviates p w.
Proof.
  intros F H. assert (NE : p <> "") by (intros ->; discriminate).
  assert (G : forall o, In o longs -> String.prefix p o = true -> exists b w, In (b, w) words /\ abbreviates p w).
  { intros o Hin HP. apply prefix_split in HP. destruct HP as (r & HP).
    assert (G1 : forall w, o = w ++ "=" -> abbreviates p w).
    { intros u E. split; [exact NE|]. rewrite E in HP. clear -HP F. revert p F HP. induction u as [|c u IH]; intros p F HP.
      - destruct p as [|d p]; [exists ""; reflexivity|]. cbn in HP. injection HP as <- _. destruct F as [F _]. congruence.
      - destruct p as [|d p]; [eexists; reflexivity|]. cbn in HP. injection HP as <- HP. destruct F as [_ F]. destruct (IH p F HP) as (q & ->). exists q. reflexivity. }
    destruct Hin as [<-|[<-|[<-|[<-|[<-|[]]]]]].
    - exists false, "help". split; [cbn; auto|]. split; [exact NE|]. exists r. exact HP.
    - exists false, "version". split; [cbn; auto|]. split; [exact NE|]. exists r. exact HP.
    - exists true, "log". split; [cbn; auto|]. apply G1. reflexivity.
    - exists true, "threads". split; [cbn; auto|]. apply G1. reflexivity.
    - exists false, "knob". split; [cbn; auto 10|]. split; [exact NE|]. exists r. exact HP. }
  assert (X : exists o, In o longs /\ String.prefix p o = true).
  { unfold longHasArgs in H. destruct (filter _ longs) as [|u more] eqn:Q; [discriminate|]. exists u. assert (K : In u (u :: more)) by (left; reflexivity). rewrite <- Q in K. apply filter_In in K. exact K. }
  destruct X as (o & X1 & X2). destruct (G o X1 X2) as (b' & w' & W1 & W2). destruct (abbr_long p b' w' W1 W2) as [_ W3]. rewrite W3 in H. apply Ok_inj in H. injection H as <- <-. split; assumption.
Qed.
Lemma words_flag w : In (false, w) words <-> exists o, In (w, o) flags.
Proof.
  split.
  - intros [H|[H|[H|[H|[H|[]]]]]]; try discriminate; injection H as <-; cbn; eauto 10.
  - intros (o & [H|[H|[H|[]]]]); injection H as <- _; cbn; auto 10.
Qed.
Lemma words_valued w : In (true, w) words <-> exists f, In (w, f) valued.
Proof.
  split.
  - intros [H|[H|[H|[H|[H|[]]]]]]; try discriminate; injection H as <-; cbn; eauto 10.
  - intros (o & [H|[H|[]]]); injection H as <- _; cbn; auto 10.
Qed.
Lemma flag_meaning w o : In (w, o) flags -> meaning ("--" ++ w, "") = Some o.
Proof. intros [H|[H|[H|[]]]]; injection H as <- <-; reflexivity. Qed.
Lemma valued_meaning w f v : In (w, f) valued -> meaning ("--" ++ w, v) = Some (f v).
Proof. intros [H|[H|[]]]; injection H as <- <-; reflexivity. Qed.
Lemma substring_all s : forall n, (String.length s <= n)%nat -> substring 0 n s = s.
Proof. induction s as [|c s IH]; intros [|n] L; cbn in *; try reflexivity; try lia. rewrite IH by lia. reflexivity. Qed.
Lemma tail1 s : substring 1 (String.length (String "-" s) - 1) (String "-" s) = s.
Proof. cbn [String.length substring]. apply substring_all. lia. Qed.
Lemma tail2 s : substring 2 (String.length ("--" ++ s) - 2) ("--" ++ s) = s.
Proof. cbn [append String.length substring]. apply substring_all. lia. Qed.
Lemma eqb_cons_nil c s : String.eqb (String c s) "" = false.
Proof. reflexivity. Qed.
Lemma doShorts_h n args : doShorts (hs n) "h" args = Ok (repeat ("-h", "") n, args).
Proof. induction n as [|n IH]; [reflexivity|]. cbn [hs doShorts]. cbn [shortHasArg Ascii.eqb Bool.eqb andb negb String.prefix bind]. rewrite IH. reflexivity. Qed.
Lemma doShorts_inv s args x : doShorts s "h" args = Ok x -> exists n, s = hs n /\ x = (repeat ("-h", "") n, args).
Proof.
  revert x. induction s as [|c s IH]; intros x H; [okinv H; exists 0; split; reflexivity|]. cbn [doShorts] in H.
  cbn [shortHasArg] in H. destruct (Ascii.eqb_spec c "h") as [->|]; cbn -[doShorts] in H; [|discriminate].
  apply bind_ok in H. destruct H as (y & E & H). okinv H. destruct (IH _ E) as (n & -> & ->). exists (S n). split; reflexivity.
Qed.
Lemma doLongs_inv s rest x : doLongs s longs rest = Ok x ->
  exists w p, abbreviates p w /\
   ((exists o, In (w, o) flags /\ s = p /\ x = (("--" ++ w, ""), rest)) \/
    (exists f v, In (w, f) valued /\ ((s = p /\ rest = v :: snd x /\ fst x = ("--" ++ w, v)) \/ (s = p ++ "=" ++ v /\ x = (("--" ++ w, v), rest))))).
Proof.
  unfold doLongs. generalize (splitEq_inv s). destruct (splitEq s) as [[a v]|]; intros I H.
  - destruct I as [-> F]. apply bind_ok in H. destruct H as ([b w] & E & H). destruct (long_abbr _ _ _ F E) as [W A]. destruct b; [|discriminate].
    okinv H. apply words_valued in W. destruct W as (f & W). exists w, a. split; [exact A|]. right. exists f, v. auto.
  - apply bind_ok in H. destruct H as ([b w] & E & H). destruct (long_abbr _ _ _ I E) as [W A]. exists w, s. split; [exact A|]. destruct b.
    + apply words_valued in W. destruct W as (f & W). destruct rest as [|v rest]; [discriminate|]. okinv H. right. exists f, v. auto.
    + apply words_flag in W. destruct W as (o & W). okinv H. left. exists o. auto.
Qed.

Lemma map_repeat' {A B} (f : A -> B) x n : map f (repeat x n) = repeat (f x) n.
Proof. induction n as [|n IH]; cbn; [reflexivity|rewrite IH; reflexivity]. Qed.
Lemma loop_sound fuel : forall raw0 args raw files, getoptLoop fuel "h" longs raw0 args = Ok (raw, files) ->
  exists raw' opts, raw = (raw0 ++ raw')%list /\ map meaning raw' = map Some opts /\ parses args opts files.
Proof.
  induction fuel as [|fuel IH]; intros raw0 args raw files H; [discriminate|]. cbn [getoptLoop] in H. destruct args as [|a rest].
  - injection H as <- <-. exists [], []. rewrite app_nil_r. repeat split. constructor.
  - destruct (String.prefix "-" a && negb (String.eqb a "-")) eqn:C.
    + apply andb_true_iff in C. destruct C as [C1 C2]. apply prefix_split in C1. destruct C1 as (t & ->). change ("-" ++ t) with (String "-" t) in *.
      destruct (String.eqb_spec (String "-" t) "--") as [E|NE].
      * injection H as <- <-. rewrite E. exists [], []. rewrite app_nil_r. repeat split. constructor.
      * destruct (String.prefix "--" (String "-" t)) eqn:C3.
        -- apply prefix_split in C3. destruct C3 as (s & C3). rewrite C3 in *. rewrite tail2 in H. apply bind_ok in H. destruct H as ([na args] & E & H). cbn [fst snd] in H.
           destruct (IH _ _ _ _ H) as (raw' & opts & -> & M & PS). apply doLongs_inv in E. destruct E as (w & p & A & [(o & W & -> & E)|(f & v & W & [(-> & E1 & E2)|(-> & E)])]).
           ++ injection E as -> ->. exists (("--" ++ w, "") :: raw'), (o :: opts). rewrite <- app_assoc. split; [reflexivity|]. split; [cbn [map]; rewrite M, (flag_meaning _ _ W); reflexivity|]. eapply parses_flag; eassumption.
           ++ cbn in E1, E2. subst rest na. exists (("--" ++ w, v) :: raw'), (f v :: opts). rewrite <- app_assoc. split; [reflexivity|]. split; [cbn [map]; rewrite M, (valued_meaning _ _ _ W); reflexivity|]. eapply parses_next; eassumption.
           ++ injection E as -> ->. exists (("--" ++ w, v) :: raw'), (f v :: opts). rewrite <- app_assoc. split; [reflexivity|]. split; [cbn [map]; rewrite M, (valued_meaning _ _ _ W); reflexivity|]. eapply parses_equals; eassumption.
        -- rewrite tail1 in H. apply bind_ok in H. destruct H as ([nas args] & E & H). cbn [fst snd] in H. destruct (IH _ _ _ _ H) as (raw' & opts & -> & M & PS).
           apply doShorts_inv in E. destruct E as (n & -> & E). injection E as -> ->. destruct n as [|n]; [cbn in C2; discriminate|].
           exists (repeat ("-h", "") (S n) ++ raw')%list, (repeat Help (S n) ++ opts)%list. rewrite <- app_assoc. split; [reflexivity|]. split; [rewrite !map_app, !map_repeat', M; reflexivity|].
           apply (parses_h n). exact PS.
    + injection H as <- <-. exists [], []. rewrite app_nil_r. repeat split. constructor. apply andb_false_iff in C. destruct C as [C|C].
      * right. intros s ->. cbn in C. destruct s; discriminate.
      * left. apply negb_false_iff in C. apply String.eqb_eq in C. exact C.
Qed.
Lemma loop_complete args opts files : parses args opts files -> forall fuel raw0, (List.length args < fuel)%nat ->
  exists raw', getoptLoop fuel "h" longs raw0 args = Ok ((raw0 ++ raw')%list, files) /\ map meaning raw' = map Some opts.
Proof.
  induction 1 as [|a rest C|rest|n rest opts files PS IH|w o p rest opts files W A PS IH|w f p v rest opts files W A PS IH|w f p v rest opts files W A PS IH]; intros fuel raw0 L;
  (destruct fuel as [|fuel]; [lia|]); cbn [getoptLoop List.length] in *.
  - exists []. rewrite app_nil_r. auto.
  - exists []. rewrite app_nil_r. split; [|reflexivity]. destruct C as [->|C]; [reflexivity|]. destruct (String.prefix "-" a) eqn:Q; [|reflexivity]. apply prefix_split in Q. destruct Q as (t & Q). exfalso. apply (C t). exact Q.
  - exists []. rewrite app_nil_r. auto.
  - change ("-" ++ hs (S n)) with (String "-" (hs (S n))). cbn [hs]. change (String.prefix "-" (String "-" (String "h" (hs n))) && negb (String.eqb (String "-" (String "h" (hs n))) "-")) with true. cbn iota.
    change (String.eqb (String "-" (String "h" (hs n))) "--") with false. change (String.prefix "--" (String "-" (String "h" (hs n)))) with false. cbn iota.
    change (String "h" (hs n)) with (hs (S n)). rewrite tail1, doShorts_h. cbn [bind fst snd]. destruct (IH fuel (raw0 ++ repeat ("-h", "") (S n))%list ltac:(lia)) as (raw' & E & M).
    exists (repeat ("-h", "") (S n) ++ raw')%list. rewrite E, <- app_assoc. split; [reflexivity|]. rewrite !map_app, !map_repeat', M. reflexivity.
  - assert (W' : In (false, w) words) by (apply words_flag; eauto). destruct (abbr_long _ _ _ W' A) as [F LH]. destruct A as [NE _].
    assert (Q : String.eqb ("--" ++ p) "--" = false) by (destruct p; [congruence|reflexivity]). rewrite Q. change (String.prefix "-" ("--" ++ p) && negb (String.eqb ("--" ++ p) "-")) with true. cbn iota.
    rewrite prefix_app, tail2. unfold doLongs at 1. rewrite (splitEq_none _ F), LH. cbn [bind fst snd]. destruct (IH fuel (raw0 ++ [(String.append "--" w, "")])%list ltac:(lia)) as (raw' & E & M).
    exists (("--" ++ w, "") :: raw'). rewrite E, <- app_assoc. split; [reflexivity|]. cbn [map]. rewrite (flag_meaning _ _ W), M. reflexivity.
  - assert (W' : In (true, w) words) by (apply words_valued; eauto). destruct (abbr_long _ _ _ W' A) as [F LH]. destruct A as [NE _].
    assert (Q : String.eqb ("--" ++ p) "--" = false) by (destruct p; [congruence|reflexivity]). rewrite Q. change (String.prefix "-" ("--" ++ p) && negb (String.eqb ("--" ++ p) "-")) with true. cbn iota.
    rewrite prefix_app, tail2. unfold doLongs at 1. rewrite (splitEq_none _ F), LH. cbn [bind fst snd]. destruct (IH fuel (raw0 ++ [(String.append "--" w, v)])%list ltac:(lia)) as (raw' & E & M).
    exists (("--" ++ w, v) :: raw'). rewrite E, <- app_assoc. split; [reflexivity|]. cbn [map]. rewrite (valued_meaning _ _ _ W), M. reflexivity.
  - assert (W' : In (true, w) words) by (apply words_valued; eauto). destruct (abbr_long _ _ _ W' A) as [F LH]. destruct A as [NE _].
    assert (Q : String.eqb ("--" ++ p ++ "=" ++ v) "--" = false) by (destruct p; [congruence|reflexivity]). rewrite Q. change (String.prefix "-" ("--" ++ p ++ "=" ++ v) && negb (String.eqb ("--" ++ p ++ "=" ++ v) "-")) with true. cbn iota.
    rewrite prefix_app, tail2. unfold doLongs at 1. rewrite (splitEq_some _ _ F), LH. cbn [bind fst snd]. destruct (IH fuel (raw0 ++ [(String.append "--" w, v)])%list ltac:(lia)) as (raw' & E & M).
    exists (("--" ++ w, v) :: raw'). rewrite E, <- app_assoc. split; [reflexivity|]. cbn [map]. rewrite (valued_meaning _ _ _ W), M. reflexivity.
Qed.
Theorem getopt_parses argv opts files : parses argv opts files <-> exists raw, getopt argv "h" longs = Ok (raw, files) /\ map meaning raw = map Some opts.
Proof.
  split.
  - intros PS. destruct (loop_complete _ _ _ PS (S (List.length argv)) [] ltac:(lia)) as (raw & E & M). exists raw. auto.
  - intros (raw & E & M). destruct (loop_sound _ _ _ _ _ E) as (raw' & opts' & -> & M' & PS). cbn in M. rewrite M' in M.
    assert (opts' = opts); [|subst; exact PS]. clear -M. revert opts M. induction opts' as [|o l IH]; intros [|o' l'] M; try discriminate; [reflexivity|]. cbn in M. injection M as -> M. f_equal. apply IH. exact M.
Qed.

Lemma level_in l : inStrings l levelNames = true <-> level l.
Proof.
  unfold inStrings, level. rewrite existsb_exists. split.
  - intros (x & H & E). apply String.eqb_eq in E. subst x. cbn in *. tauto.
  - intros H. exists l. split; [cbn in *; tauto|apply String.eqb_refl].
Qed.
Fixpoint endKnob (opts : list opt) (k : bool) : bool := match opts with [] => k | Knob :: r => endKnob r true | _ :: r => endKnob r k end.
Lemma knob_ok opts : knob_only opts (endKnob opts false).
Proof.
  assert (K : forall k, endKnob opts k = true <-> k = true \/ In Knob opts).
  { induction opts as [|o opts IH]; intros k; [cbn; tauto|]. cbn. destruct o; rewrite IH; intuition discriminate. }
  unfold knob_only. rewrite K. intuition discriminate.
Qed.
Section Main.
Variable data : Type.
Variable parseInt : string -> option Z.
Variable read : string -> res string.
Variable make : list string -> Z -> bool -> res (list (string * data)).
Variable write : string -> data -> res unit.
Notation optionLoop := (optionLoop data parseInt).
Notation readAll := (readAll data read).
Notation writeAll := (writeAll data write).
Notation main := (main data parseInt read make write).
Notation event := (event data).

Lemma option_step na o r t k : meaning na = Some o -> optionLoop (na :: r) t k =
  match o with
  | Help => ([PrintHelp], inl 0%Z)
  | Version => ([PrintVersion], inl 0%Z)
  | Log l => if inStrings l levelNames then let '(es, x) := optionLoop r t k in (SetLevel l :: es, x) else ([], inl 1%Z)
  | Threads s => match parseInt s with Some n => optionLoop r n k | None => ([], inl 1%Z) end
  | Knob => optionLoop r t true
  end.
Proof.
  destruct na as [n a]. unfold meaning. cbn [MainModel.optionLoop]. destruct (String.eqb n "-h" || String.eqb n "--help"); [intros H; injection H as <-; reflexivity|].
  destruct (String.eqb n "--version"); [intros H; injection H as <-; reflexivity|]. destruct (String.eqb n "--log"); [intros H; injection H as <-; reflexivity|].
  destruct (String.eqb n "--threads"); [intros H; injection H as <-; reflexivity|]. destruct (String.eqb n "--knob"); [intros H; injection H as <-; reflexivity|discriminate].
Qed.
Fixpoint endThreads (opts : list opt) (t : Z) : Z :=
  match opts with [] => t | Threads s :: r => endThreads r (match parseInt s with Some n => n | None => t end) | _ :: r => endThreads r t end.
Lemma split_raw raw before rest : map meaning raw = map Some (before ++ rest)%list ->
  exists r1 r2, raw = (r1 ++ r2)%list /\ map meaning r1 = map Some before /\ map meaning r2 = map Some rest.
Proof.
  revert raw. induction before as [|o before IH]; intros raw H; [exists [], raw; auto|]. destruct raw as [|na raw]; [discriminate|]. cbn in H. injection H as E H.
  destruct (IH _ H) as (r1 & r2 & -> & M1 & M2). exists (na :: r1), r2. split; [reflexivity|]. cbn. rewrite E, M1. auto.
Qed.
Lemma options_before before : Forall (goes_on parseInt) before -> forall r1 r2 t k, map meaning r1 = map Some before ->
  optionLoop (r1 ++ r2)%list t k = (map SetLevel (levels before) ++ fst (optionLoop r2 (endThreads before t) (endKnob before k)), snd (optionLoop r2 (endThreads before t) (endKnob before k)))%list.
Proof using data parseInt.
  induction 1 as [|o before G GS IH]; intros r1 r2 t k M.
  - destruct r1; [|discriminate]. cbn. destruct (optionLoop r2 t k). reflexivity.
  - destruct r1 as [|na r1]; [discriminate|]. cbn [map] in M. injection M as E M. cbn [app]. rewrite (option_step _ _ _ _ _ E). destruct o; cbn [goes_on] in G; try contradiction; cbn [endThreads endKnob].
    + apply level_in in G. rewrite G. rewrite (IH r1 r2 t k M). reflexivity.
    + destruct (parseInt count); [|congruence]. apply IH. exact M.
    + apply IH. exact M.
Qed.
Lemma thread_count_ok opts : Forall (goes_on parseInt) opts -> thread_count parseInt opts (endThreads opts 8).
Proof.
  intros G. assert (K : forall t, ((forall s, ~ In (Threads s) opts) /\ endThreads opts t = t) \/
     exists before s after, opts = (before ++ Threads s :: after)%list /\ (forall s', ~ In (Threads s') after) /\ parseInt s = Some (endThreads opts t)).
  { induction G as [|o opts GO G IH]; intros t; [left; split; [intros s []|reflexivity]|].
    destruct o; cbn [goes_on] in GO; try contradiction;
    try (cbn [endThreads]; destruct (IH t) as [[N E]|(b & s & a & -> & N & E)];
      [left; split; [intros s [Q|Q]; [discriminate|exact (N _ Q)]|exact E]
      |right; eexists (_ :: b), s, a; split; [reflexivity|]; split; [exact N|exact E]]).
    cbn [endThreads]. destruct (parseInt count) as [n|] eqn:PI; [|congruence].
    destruct (IH n) as [[N E]|(b & s & a & -> & N & E)].
    - right. exists [], count, opts. rewrite E. auto.
    - right. exists (Threads count :: b), s, a. auto. }
  destruct (K 8%Z) as [[N E]|H]; [left; auto|right; exact H].
Qed.
Lemma readAll_spec paths : match mapM read paths with
  | Ok ss => readAll paths = (map Read paths, Ok ss)
  | Err _ => exists k e, readAll paths = (map Read (firstn k paths), Err e) end.
Proof.
  induction paths as [|p paths IH]; [reflexivity|]. cbn [mapM MainModel.readAll]. destruct (read p) as [s|e]; cbn [bind].
  - destruct (mapM read paths) as [ss|e]; cbn [bind].
    + rewrite IH. reflexivity.
    + destruct IH as (k & e' & ->). exists (S k), e'. reflexivity.
  - exists 0, e. reflexivity.
Qed.
Definition outs (st : string) (files : list (string * data)) := map (fun nd => (st ++ "-" ++ fst nd, snd nd)) files.
Lemma writeAll_spec st files :
  (writeAll st files = (map (fun pd => Wrote (fst pd) (snd pd)) (outs st files), 0%Z) /\ forall pd, In pd (outs st files) -> write (fst pd) (snd pd) = Ok tt) \/
  (exists done pd rest, outs st files = (done ++ pd :: rest)%list /\ (forall pd, In pd done -> write (fst pd) (snd pd) = Ok tt) /\ (exists e, write (fst pd) (snd pd) = Err e) /\
    writeAll st files = (map (fun pd => Wrote (fst pd) (snd pd)) done ++ [WriteFailed (fst pd)], 1%Z)%list).
Proof.
  induction files as [|[n d] files IH]; [left; split; [reflexivity|intros pd []]|]. cbn [MainModel.writeAll outs map fst snd]. fold (outs st files).
  destruct (write (st ++ "-" ++ n) d) as [[]|e] eqn:W.
  - destruct IH as [[-> O]|(done & pd & rest & E & O & F & ->)].
    + left. split; [reflexivity|]. intros pd [<-|H]; [exact W|apply O; exact H].
    + right. exists ((st ++ "-" ++ n, d) :: done), pd, rest. rewrite E. split; [reflexivity|]. split; [intros q [<-|H]; [exact W|apply O; exact H]|]. split; [exact F|reflexivity].
  - right. exists [], (st ++ "-" ++ n, d), (outs st files). split; [reflexivity|]. split; [intros q []|]. split; [exists e; exact W|reflexivity].
Qed.
End Main.
