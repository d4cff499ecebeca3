(** C42: the command line (body/chrumm/__main__.py). *)
From Coq Require Import Ascii String ZArith List Bool Lia.
From Verif Require Import Num FaceModel FaceComb MainModel MainSpec MainProof.
Import ListNotations.
Open Scope string_scope.

(* the arguments are accepted exactly when they follow the grammar; a grammatical
   command line has one reading *)
Theorem C42_grammar : forall data parseInt read make write argv,
  (~ exists opts files, parses argv opts files) -> main data parseInt read make write argv = ([], 1%Z).
Proof.
  intros data parseInt read make write argv H. unfold main. destruct (getopt argv "h" _) as [[raw files]|e] eqn:E; [|reflexivity]. exfalso. apply H.
  destruct (loop_sound _ _ _ _ _ E) as (raw' & opts & _ & M & PS). eauto.
Qed.
Print Assumptions C42_grammar.
Theorem C42_unambiguous : forall argv opts files opts' files', parses argv opts files -> parses argv opts' files' -> opts = opts' /\ files = files'.
Proof.
  intros argv opts files opts' files' H H'. apply getopt_parses in H, H'. destruct H as (r & E & M), H' as (r' & E' & M'). rewrite E in E'. apply Ok_inj in E'. injection E' as <- <-.
  split; [|reflexivity]. rewrite M in M'. clear -M'. revert opts' M'. induction opts as [|o l IH]; intros [|o' l'] M; try discriminate; [reflexivity|]. cbn in M. injection M as -> M. f_equal. apply IH. exact M.
Qed.
Print Assumptions C42_unambiguous.

(* options act from left to right: the first --help or --version prints and ends
   with status 0, the first invalid value ends with status 1; nothing is read,
   made or written *)
Theorem C42_options_end : forall data parseInt read make write argv before o after files,
  parses argv (before ++ o :: after)%list files -> Forall (goes_on parseInt) before -> ~ goes_on parseInt o ->
  main data parseInt read make write argv =
    ((map SetLevel (levels before) ++ match o with Help => [PrintHelp] | Version => [PrintVersion] | _ => [] end)%list,
     match o with Help | Version => 0%Z | _ => 1%Z end).
Proof.
  intros data parseInt read make write argv before o after files PS G B. apply getopt_parses in PS. destruct PS as (raw & E & M).
  apply split_raw in M. destruct M as (r1 & r2 & -> & M1 & M2). unfold main. change ["help"; "version"; "log="; "threads="; "knob"] with longs. rewrite E.
  rewrite (options_before data parseInt before G r1 r2 8 false M1). destruct r2 as [|na r2]; [discriminate|]. cbn [map] in M2. injection M2 as E2 M2.
  rewrite (option_step _ _ _ _ _ _ _ E2). destruct o; cbn [goes_on] in B.
  - reflexivity.
  - reflexivity.
  - destruct (inStrings level levelNames) eqn:L; [apply level_in in L; contradiction|]. reflexivity.
  - destruct (parseInt count); [exfalso; apply B; discriminate|reflexivity].
  - exfalso. apply B. exact I.
Qed.
Print Assumptions C42_options_end.

(* otherwise the files are read in order, make is called once, and what it
   returns is written as stem-name.  Status 0 means everything was written;
   without make's result nothing is written *)
Theorem C42_run : forall data parseInt read make write argv opts files,
  parses argv opts files -> Forall (goes_on parseInt) opts ->
  exists threads knob events status, thread_count parseInt opts threads /\ knob_only opts knob /\
  main data parseInt read make write argv = ((map SetLevel (levels opts) ++ events)%list, status) /\
  (files = [] -> events = [] /\ status = 1%Z) /\
  (files <> [] -> forall e, mapM read files = Err e -> status = 1%Z /\ exists k, events = map Read (firstn k files)) /\
  (files <> [] -> forall strings, mapM read files = Ok strings ->
    match make strings threads knob with
    | Err _ => events = map Read files /\ status = 1%Z
    | Ok made =>
        let outputs := map (fun nd => (stem (last files "") ++ "-" ++ fst nd, snd nd)) made in
        let wrote pds := map (fun pd => Wrote (fst pd) (snd pd)) pds in
        (events = (map Read files ++ Made strings threads knob :: wrote outputs)%list /\ status = 0%Z /\
         forall pd, In pd outputs -> write (fst pd) (snd pd) = Ok tt) \/
        (exists done p d rest e, outputs = (done ++ (p, d) :: rest)%list /\
         (forall pd, In pd done -> write (fst pd) (snd pd) = Ok tt) /\ write p d = Err e /\
         events = (map Read files ++ Made strings threads knob :: wrote done ++ [WriteFailed p])%list /\ status = 1%Z)
    end).
Proof.
  intros data parseInt read make write argv opts files PS G. apply getopt_parses in PS. destruct PS as (raw & E & M).
  assert (OL := options_before data parseInt opts G raw [] 8 false M). rewrite app_nil_r in OL. cbn [optionLoop fst snd] in OL. rewrite app_nil_r in OL.
  exists (endThreads parseInt opts 8), (endKnob opts false). set (t := endThreads parseInt opts 8) in *. set (k := endKnob opts false) in *.
  assert (T : thread_count parseInt opts t) by (apply thread_count_ok; exact G). assert (K : knob_only opts k) by apply knob_ok.
  assert (MA : exists events status, main data parseInt read make write argv = ((map SetLevel (levels opts) ++ events)%list, status) /\
     (files = [] -> events = [] /\ status = 1%Z) /\
     (files <> [] -> forall e, mapM read files = Err e -> status = 1%Z /\ exists k, events = map Read (firstn k files)) /\
     (files <> [] -> forall strings, mapM read files = Ok strings -> match make strings t k with
       | Err _ => events = map Read files /\ status = 1%Z
       | Ok made => (events, status) = let '(es3, code) := writeAll data write (stem (last files "")) made in ((map Read files ++ [Made strings t k] ++ es3)%list, code) end)).
  { unfold main. change ["help"; "version"; "log="; "threads="; "knob"] with longs. rewrite E, OL. assert (RS := readAll_spec data read files).
    destruct files as [|f fs] eqn:FE; [exists [], 1%Z; rewrite app_nil_r; split; [reflexivity|]; split; [auto|]; split; intros C; destruct (C eq_refl)|]. rewrite <- FE in *. assert (NN : files <> []) by (rewrite FE; discriminate). clear FE.
    destruct (mapM read files) as [ss|e] eqn:RE.
    - rewrite RS. destruct (make ss t k) as [made|e] eqn:ME.
      + destruct (writeAll data write (stem (last files "")) made) as [es3 code] eqn:WE. exists (map Read files ++ [Made ss t k] ++ es3)%list, code. split; [reflexivity|].
        split; [contradiction|]. split; [discriminate|]. intros _ ss' Q. apply Ok_inj in Q. subst ss'. rewrite ME, WE. reflexivity.
      + exists (map Read files), 1%Z. split; [reflexivity|]. split; [contradiction|]. split; [discriminate|]. intros _ ss' Q. apply Ok_inj in Q. subst ss'. rewrite ME. auto.
    - destruct RS as (n & e' & RS). rewrite RS. exists (map Read (firstn n files)), 1%Z. split; [reflexivity|]. split; [contradiction|]. split; [|discriminate]. intros _ e0 _. split; [reflexivity|]. eauto. }
  destruct MA as (events & status & M1 & M2 & M3 & M4). exists events, status. split; [exact T|]. split; [exact K|]. split; [exact M1|]. split; [exact M2|]. split; [exact M3|].
  intros NN ss RE. specialize (M4 NN ss RE). destruct (make ss t k) as [made|e]; [|exact M4]. cbv zeta. change (map (fun nd => (stem (last files "") ++ "-" ++ fst nd, snd nd)) made) with (outs data (stem (last files "")) made).
  destruct (writeAll_spec data write (stem (last files "")) made) as [[W O]|(done & [p d] & rest & W1 & O & (e & W2) & W3)].
  - rewrite W in M4. injection M4 as -> ->. left. auto.
  - rewrite W3 in M4. injection M4 as -> ->. right. exists done, p, d, rest, e. auto.
Qed.
Print Assumptions C42_run.
(* so a file appears only if all configuration files could be read and make succeeded on them *)
Theorem C42_writes : forall data parseInt read make write argv path d,
  In (Wrote path d) (fst (main data parseInt read make write argv)) ->
  exists opts files threads knob strings made name, parses argv opts files /\ Forall (goes_on parseInt) opts /\
    thread_count parseInt opts threads /\ knob_only opts knob /\
    mapM read files = Ok strings /\ make strings threads knob = Ok made /\ In (name, d) made /\
    path = stem (last files "") ++ "-" ++ name /\ write path d = Ok tt.
Proof.
  intros data parseInt read make write argv path d H. unfold main in H. destruct (getopt argv "h" _) as [[raw files]|e] eqn:E; [|destruct H].
  destruct (loop_sound _ _ _ _ _ E) as (raw' & opts & Q & M & PS). cbn in Q. subst raw'.
  assert (LN : forall ls, In (Wrote path d) (map (@SetLevel data) ls) -> False) by (intros ls Hl; apply in_map_iff in Hl; destruct Hl as (? & ? & _); discriminate).
  assert (D : (Forall (goes_on parseInt) opts) \/ exists before o after, opts = (before ++ o :: after)%list /\ Forall (goes_on parseInt) before /\ ~ goes_on parseInt o).
  { clear. induction opts as [|o opts IH]; [left; constructor|]. assert (DG : goes_on parseInt o \/ ~ goes_on parseInt o).
    { destruct o; cbn; auto. - destruct (inStrings level levelNames) eqn:L; [left; apply level_in; exact L|right; intros C; apply level_in in C; congruence]. - destruct (parseInt count); [left; discriminate|right; intros C; apply C; reflexivity]. }
    destruct DG as [G|NG]; [|right; exists [], o, opts; auto]. destruct IH as [IH|(b & o' & a & -> & B & C)]; [left; constructor; assumption|]. right. exists (o :: b), o', a. split; [reflexivity|]. split; [constructor; assumption|exact C]. }
  destruct D as [G|(before & o & after & -> & G & B)].
  - destruct (C42_run data parseInt read make write argv opts files PS G) as (t & k & events & status & T & K & MA & F1 & F2 & F3). unfold main in MA. rewrite E in MA. rewrite MA in H. cbn [fst] in H.
    apply in_app_or in H. destruct H as [H|H]; [destruct (LN _ H)|].
    assert (NR : forall l, In (Wrote path d) (map (@Read data) l) -> False) by (intros l Hl; apply in_map_iff in Hl; destruct Hl as (? & ? & _); discriminate).
    assert (NN : files <> []) by (intros C; destruct (F1 C) as [C1 _]; subst events; destruct H).
    destruct (mapM read files) as [ss|e] eqn:RE; [|destruct (F2 NN e eq_refl) as (_ & n & ->); destruct (NR _ H)].
    specialize (F3 NN ss eq_refl). destruct (make ss t k) as [made|e] eqn:ME; [|destruct F3 as [-> _]; destruct (NR _ H)]. cbv zeta in F3.
    assert (IN : forall l, In (Wrote path d) (map (fun pd : string * data => Wrote (fst pd) (snd pd)) l) -> In (path, d) l).
    { intros l Hl. apply in_map_iff in Hl. destruct Hl as ([p' d'] & Q & Hin). injection Q as -> ->. exact Hin. }
    assert (X : In (path, d) (map (fun nd => (stem (last files "") ++ "-" ++ fst nd, snd nd)) made) /\ write path d = Ok tt).
    { destruct F3 as [(-> & _ & O)|(done & p' & d' & rest & e & O1 & O & O2 & -> & _)].
      - apply in_app_or in H. destruct H as [H|[H|H]]; [destruct (NR _ H)|discriminate|]. apply IN in H. split; [exact H|exact (O _ H)].
      - apply in_app_or in H. destruct H as [H|[H|H]]; [destruct (NR _ H)|discriminate|]. apply in_app_or in H. destruct H as [H|[H|[]]]; [|discriminate]. apply IN in H.
        split; [rewrite O1; apply in_or_app; left; exact H|exact (O _ H)]. }
    destruct X as [X W]. apply in_map_iff in X. destruct X as ([name d'] & Q & Hin). cbn [fst snd] in Q. injection Q as Q ->.
    exists opts, files, t, k, ss, made, name. repeat (split; [assumption|]). split; [symmetry; exact Q|exact W].
  - exfalso. assert (O := C42_options_end data parseInt read make write argv before o after files PS G B). unfold main in O. rewrite E in O. rewrite O in H. cbn [fst] in H.
    apply in_app_or in H. destruct H as [H|H]; [exact (LN _ H)|]. destruct o; cbn in H; intuition discriminate.
Qed.
Print Assumptions C42_writes.

(** ** where the files go *)
Definition slash : ascii := "/".
Definition dot : ascii := ".".
(* in the current directory, whatever directory the configuration is in *)
Theorem C42_no_slash : forall file, free_of slash (stem file).
Proof.
  intros file. assert (A : forall s p, In p (splitSlash s) -> free_of slash p).
  { induction s as [|c s IH]; intros p H; [destruct H as [<-|[]]; exact I|]. cbn [splitSlash] in H. destruct (splitSlash s) as [|q qs]; [destruct H|].
    destruct (Ascii.eqb_spec c "/") as [->|NE].
    - destruct H as [<-|H]; [exact I|apply IH; exact H].
    - destruct H as [<-|H]; [split; [exact NE|apply IH; left; reflexivity]|apply IH; right; exact H]. }
  assert (B : free_of slash (pathName file)).
  { unfold pathName. set (l := filter _ _). assert (L : forall p, In p l -> free_of slash p) by (intros p Hp; apply filter_In in Hp; apply (A file); tauto). clearbody l.
    induction l as [|p l IH]; [exact I|]. cbn [last]. destruct l; [apply L; left; reflexivity|]. apply IH. intros q Hq. apply L. right. exact Hq. }
  assert (C : forall s n m, free_of slash s -> free_of slash (substring n m s)).
  { induction s as [|c s IH]; intros [|n] [|m] F; cbn in *; try exact I; try (destruct F); auto. }
  unfold stem. destruct (rfindDot (pathName file)); [|exact B]. destruct (_ && _); [apply C; exact B|exact B].
Qed.
Print Assumptions C42_no_slash.
(* a file in some directory: the name without its last extension *)
Definition folder (dir : string) : Prop := dir = "" \/ exists d, dir = d ++ "/".
Theorem C42_stem : forall dir base ext, folder dir -> free_of slash base -> base <> "" ->
  (ext <> "" -> free_of slash ext -> free_of dot ext -> stem (dir ++ base ++ "." ++ ext) = base) /\
  (free_of dot base -> stem (dir ++ base) = base).
Proof.
  assert (NN : forall s, splitSlash s <> []).
  { induction s as [|c s IH]; cbn; [discriminate|]. destruct (splitSlash s); [congruence|]. destruct (Ascii.eqb c "/"); discriminate. }
  assert (S1 : forall s, free_of slash s -> splitSlash s = [s]).
  { induction s as [|c s IH]; intros F; [reflexivity|]. destruct F as [NE F]. cbn. rewrite IH by exact F. destruct (Ascii.eqb_spec c "/"); [contradiction|reflexivity]. }
  assert (S2 : forall d s, free_of slash s -> splitSlash (d ++ String "/" s) = (splitSlash d ++ [s])%list).
  { induction d as [|c d IH]; intros s F; [cbn; rewrite (S1 s F); reflexivity|]. cbn [append splitSlash]. rewrite IH by exact F. destruct (splitSlash d) as [|q qs] eqn:Q; [destruct (NN d Q)|]. cbn. destruct (Ascii.eqb c "/"); reflexivity. }
  assert (PN : forall dir s, folder dir -> free_of slash s -> s <> "" -> s <> "." -> pathName (dir ++ s) = s).
  { intros dir s [->|(d & ->)] F N1 N2; unfold pathName.
    - cbn [append]. rewrite (S1 s F). cbn [filter]. destruct (String.eqb_spec s ""), (String.eqb_spec s "."); try contradiction. reflexivity.
    - rewrite app_assoc_s. change ("/" ++ s) with (String "/" s). rewrite (S2 d s F), filter_app. cbn [filter]. destruct (String.eqb_spec s ""), (String.eqb_spec s "."); try contradiction. cbn [orb negb]. apply last_last. }
  assert (RN : forall s, free_of dot s -> rfindDot s = None).
  { induction s as [|c s IH]; intros F; [reflexivity|]. destruct F as [NE F]. cbn. rewrite IH by exact F. destruct (Ascii.eqb_spec c "."); [contradiction|reflexivity]. }
  assert (RS : forall b e, free_of dot e -> rfindDot (b ++ String "." e) = Some (String.length b)).
  { induction b as [|c b IH]; intros e F; cbn; [rewrite (RN e F); reflexivity|]. rewrite IH by exact F. reflexivity. }
  intros dir base ext D FB NB. split.
  - intros NE FE DE. change ("." ++ ext) with (String "." ext). unfold stem.
    assert (LN : forall a b, String.length (a ++ b) = (String.length a + String.length b)%nat) by (intros a b; induction a; cbn; congruence).
    rewrite PN; [|exact D|apply free_app; split; [exact FB|split; [discriminate|exact FE]]|destruct base; [congruence|discriminate]|destruct base as [|c [|c' b]]; [congruence|discriminate|discriminate]].
    rewrite (RS base ext DE), LN. cbn [String.length]. destruct base as [|c base]; [congruence|]. destruct ext as [|c' ext]; [congruence|].
    replace (0 <? String.length (String c base))%nat with true by reflexivity. cbn [andb].
    replace (String.length (String c base) <? String.length (String c base) + S (String.length (String c' ext)) - 1)%nat with true by (symmetry; apply Nat.ltb_lt; cbn; lia).
    generalize (String c base). clear. intros s. induction s as [|c s IH]; cbn; [reflexivity|rewrite IH; reflexivity].
  - intros DB. unfold stem. rewrite PN; [|exact D|exact FB|exact NB|intros ->; destruct DB as [DB _]; apply DB; reflexivity]. rewrite (RN base DB). reflexivity.
Qed.
Print Assumptions C42_stem.

(* slashes and dots at the end of a path do not matter *)
Theorem C42_stem_trailing : forall file, stem (file ++ "/") = stem file /\ stem (file ++ "/.") = stem file.
Proof.
  assert (S2 : forall d s, s = "" \/ s = "." -> splitSlash (d ++ String "/" s) = (splitSlash d ++ [s])%list).
  { assert (NN : forall s, splitSlash s <> []).
    { induction s as [|c s IH]; cbn; [discriminate|]. destruct (splitSlash s); [congruence|]. destruct (Ascii.eqb c "/"); discriminate. }
    induction d as [|c d IH]; intros s F; [destruct F as [->| ->]; reflexivity|]. cbn [append splitSlash]. rewrite IH by exact F. destruct (splitSlash d) as [|q qs] eqn:Q; [destruct (NN d Q)|]. cbn. destruct (Ascii.eqb c "/"); reflexivity. }
  assert (PN : forall d s, s = "" \/ s = "." -> pathName (d ++ String "/" s) = pathName d).
  { intros d s F. unfold pathName. rewrite (S2 d s F), filter_app. destruct F as [->| ->]; cbn [filter String.eqb Ascii.eqb Bool.eqb orb negb]; rewrite app_nil_r; reflexivity. }
  intros file. unfold stem. change "/." with (String "/" "."). change "/" with (String "/" ""). rewrite (PN file ""), (PN file ".") by auto. split; reflexivity.
Qed.
Print Assumptions C42_stem_trailing.

(* a command line with an abbreviated option, an option argument and a repeated option *)
Example C42_parses_example : parses ["--thr=3"; "--log"; "DEBUG"; "--threads"; "5"; "--k"; "dir/a.json"; "b.c.json"]
  [Threads "3"; Log "DEBUG"; Threads "5"; Knob] ["dir/a.json"; "b.c.json"].
Proof.
  apply (parses_equals "threads" Threads "thr" "3"); [cbn; auto|split; [discriminate|exists "eads"; reflexivity]|].
  apply (parses_next "log" Log "log" "DEBUG"); [cbn; auto|split; [discriminate|exists ""; reflexivity]|].
  apply (parses_next "threads" Threads "threads" "5"); [cbn; auto|split; [discriminate|exists ""; reflexivity]|].
  apply (parses_flag "knob" Knob "k"); [cbn; auto|split; [discriminate|exists "nob"; reflexivity]|].
  apply parses_files. right. discriminate.
Qed.
Definition demoInt (s : string) : option Z := if String.eqb s "3" then Some 3%Z else if String.eqb s "5" then Some 5%Z else None.
Definition demoMain := main string demoInt (fun p => if String.eqb p "missing" then Err ValueErr else Ok p)
  (fun ss n k => Ok [("one.stl", "1"); ("two.stl", "2")]) (fun p _ => if String.eqb p "full-two.stl" then Err ValueErr else Ok tt).
Example C42_computes :
  demoMain ["--thr=3"; "--log"; "DEBUG"; "--threads"; "5"; "--k"; "dir/a.json"; "b.c.json"] =
    ([SetLevel "DEBUG"; Read "dir/a.json"; Read "b.c.json"; Made ["dir/a.json"; "b.c.json"] 5%Z true; Wrote "b.c-one.stl" "1"; Wrote "b.c-two.stl" "2"], 0%Z) /\
  demoMain ["x/full"] = ([Read "x/full"; Made ["x/full"] 8%Z false; Wrote "full-one.stl" "1"; WriteFailed "full-two.stl"], 1%Z) /\
  demoMain ["a"; "missing"] = ([Read "a"], 1%Z) /\ demoMain ["--knob"; "--he"; "--log=BAD"] = ([PrintHelp], 0%Z) /\
  demoMain ["--log=BAD"; "-h"] = ([], 1%Z) /\ demoMain ["-hx"] = ([], 1%Z) /\ demoMain ["--knob=1"; "a"] = ([], 1%Z) /\ demoMain ["--"; "-h"] = ([Read "-h"; Made ["-h"] 8%Z false; Wrote "-h-one.stl" "1"; Wrote "-h-two.stl" "2"], 0%Z).
Proof. vm_compute. repeat split. Qed.
