(** C39: configuration files (body/chrumm/cfg.py). *)
From Coq Require Import Ascii String ZArith List Bool.
From Verif Require Import Num FaceModel FaceComb CfgModel CfgSpec CfgProof Toy.
Import ListNotations.
Open Scope string_scope.

(* after reading the files, every attribute path has what the last file that
   mentions it (or a shorter path that is a plain value) says; attributes that
   do not start with an underscore are forgotten before *)
Theorem C39_last_file_wins : forall (N : Num) radians parse globals strings g,
  (forall s j, parse s = Ok j -> wf_json j) ->
  cfgInit radians parse globals strings = Ok g ->
  exists files, mapM parse strings = Ok files /\
    forall path, attr g path = last_says radians files path (if private (hd "" path) then attr globals path else None).
Proof. intros N. exact cfgInit_attr. Qed.
Print Assumptions C39_last_file_wins.
(* nothing of an earlier configuration survives *)
Theorem C39_independent_of_past : forall (N : Num) radians parse globals globals' strings g g',
  (forall s j, parse s = Ok j -> wf_json j) ->
  cfgInit radians parse globals strings = Ok g -> cfgInit radians parse globals' strings = Ok g' ->
  forall k path, private k = false -> attr g (k :: path) = attr g' (k :: path).
Proof.
  intros N radians parse g0 g1 strings g g' W H H' k path U.
  destruct (cfgInit_attr radians parse _ _ _ W H) as (fs & F1 & F2). destruct (cfgInit_attr radians parse _ _ _ W H') as (fs' & F1' & F2').
  rewrite F1 in F1'. apply Ok_inj in F1'. subst fs'. rewrite F2, F2'. cbn [hd]. rewrite U. reflexivity.
Qed.
Print Assumptions C39_independent_of_past.
(* a file is accepted exactly when it is an object, its angles are numbers, and
   none of its groups has a name that is a plain value so far *)
Theorem C39_accepted_iff : forall (N : Num) radians (file : json) (sofar : dict), wf_json file ->
  (exists g, mergeDicts radians file sofar = Ok g) <->
  (exists items, file = JObj items) /\ angles_ok file /\ ~ clash radians file sofar.
Proof.
  intros N radians file sofar W. rewrite (merge_total radians file W sofar).
  assert (E : good file <-> exists items, file = JObj items) by (destruct file; cbn; split; try intros []; try discriminate; eauto).
  rewrite E. reflexivity.
Qed.
Print Assumptions C39_accepted_iff.
(* so switching a feature off in one file and configuring it in a later one is
   an AttributeError, although the documentation says the latest value is used *)
Theorem C39_group_after_value_raises : forall (N : Num) radians globals k v items,
  public k = true -> (match v with JObj _ => False | _ => True end) -> angle_name k = false ->
  cfgInit radians (fun s => Ok (if String.eqb s "first" then JObj [(k, v)] else JObj [(k, JObj items)])) globals ["first"; "second"] = Err AttrErr.
Proof.
  intros N radians globals k v items PB NO A. unfold cfgInit. cbn [foldM]. set (g := filter _ globals). cbn [String.eqb Ascii.eqb Bool.eqb bind].
  rewrite merge_obj. cbn [foldM]. unfold step at 1. cbn [fst snd]. rewrite PB.
  assert (E : leafValue radians k v = Ok v) by (unfold leafValue; rewrite angle_ok, A; reflexivity).
  assert (S2 : mergeDicts radians (JObj [(k, JObj items)]) (dput g k (CLeaf v)) = Err AttrErr).
  { rewrite merge_obj. cbn [foldM]. unfold step. cbn [fst snd]. rewrite PB, dget_put, String.eqb_refl. reflexivity. }
  destruct v; try destruct NO; rewrite E; cbn [bind foldM]; rewrite S2; reflexivity.
Qed.
Print Assumptions C39_group_after_value_raises.

(* two files: the second replaces one value and adds another; angles in any
   case are converted, names with underscores ignored *)
Definition cfile (s : string) : res (@json Toy) :=
  if String.eqb s "a" then
    Ok (JObj [("body", JObj [("tiltAngle", @JNum Toy 90%Z); ("width", @JNum Toy 7%Z); ("bAngles", @JNum Toy 4%Z)]); ("_x", @JNum Toy 1%Z); ("knob", JBool true)])
  else Ok (JObj [("body", JObj [("width", @JNum Toy 8%Z); ("maxANGLE", @JNum Toy 3%Z)]); ("knob", JNull)]).
Example C39_computes :
  rmap (fun g => map (attr g) [["body"; "tiltAngle"]; ["body"; "width"]; ["body"; "maxANGLE"]; ["body"; "bAngles"]; ["knob"]; ["_x"]; ["old"]; ["__name__"]; ["body"]])
    (@cfgInit Toy (fun x => 1000 + x)%Z cfile [("old", CLeaf JNull); ("__name__", CLeaf (JStr "cfg"))] ["a"; "b"]) =
  Ok [Some (Value (@JNum Toy 1090%Z)); Some (Value (@JNum Toy 8%Z)); Some (Value (@JNum Toy 1003%Z)); Some (Value (@JNum Toy 4%Z)); Some (Value JNull); None; None; Some (Value (JStr "cfg")); Some Group].
Proof. vm_compute. reflexivity. Qed.
Example C39_nonvacuous : (forall s j, cfile s = Ok j -> wf_json j) /\
  exists g, mergeDicts (fun x : @num Toy => x) (JObj [("body", JObj [("width", @JNum Toy 8%Z)])]) [("body", CNs [("width", CLeaf (@JNum Toy 7%Z))])] = Ok g.
Proof.
  split; [|eexists; vm_compute; reflexivity]. intros s j. unfold cfile. destruct (String.eqb s "a"); intros H; okinv H; cbn; repeat split; repeat constructor; cbn; intuition discriminate.
Qed.
