(** Specification of configuration lookup, independent of cfgInit. *)
From Coq Require Import Ascii String ZArith List Bool.
From Verif Require Import Num CfgModel.
Import ListNotations.
Open Scope string_scope.

Section Spec.
Context {N : Num}.
Variable radians : num -> num.

(* what a program sees at a.b.c: a JSON value, or a group of further names *)
Inductive found := Value (v : json) | Group.
(* reading the attribute path of the module *)
Fixpoint attr (d : dict) (path : list string) : option found :=
  match path with
  | [] => None
  | k :: r =>
      match dget d k with
      | None => None
      | Some (CLeaf v) => match r with [] => Some (Value v) | _ => None end
      | Some (CNs d') => match r with [] => Some Group | _ => attr d' r end
      end
  end.

(* the member k of a JSON object *)
Definition member (j : json) (k : string) : option json :=
  match j with JObj items => option_map snd (find (fun kv => String.eqb k (fst kv)) items) | _ => None end.
(* the names a configuration may define *)
Definition one_of (chars : string) (c : ascii) : bool := existsb (Ascii.eqb c) (list_ascii_of_string chars).
Definition public (k : string) : bool :=
  match list_ascii_of_string k with
  | [] => false
  | c :: r => one_of "ABCDEFGHIJKLMNOPQRSTUVWXYZabcdefghijklmnopqrstuvwxyz" c &&
              forallb (one_of "ABCDEFGHIJKLMNOPQRSTUVWXYZabcdefghijklmnopqrstuvwxyz0123456789_") r
  end.
Definition private (k : string) : bool := match list_ascii_of_string k with c :: _ => one_of "_" c | [] => false end.
(* the name ends in angle, in upper or lower case *)
Definition angle_name (k : string) : bool :=
  match rev (list_ascii_of_string k) with
  | e :: l :: g :: n :: a :: _ => one_of "aA" a && one_of "nN" n && one_of "gG" g && one_of "lL" l && one_of "eE" e
  | _ => false
  end.
(* the value a name stands for: numbers (and truth values) of names that end in
   angle, in any case, are degrees *)
Definition meaning (k : string) (v : json) : json :=
  if angle_name k then
    match v with
    | JNum x => JNum (radians x)
    | JBool b => JNum (radians (nZ (if b then 1%Z else 0%Z)))
    | _ => v
    end
  else v.
(* what one file says about a path: nothing (None), or that it is a value, a
   group, or absent because a shorter path is a value *)
Fixpoint says (j : json) (path : list string) : option (option found) :=
  match path with
  | [] => None
  | k :: r =>
      if public k then
        match member j k with
        | None => None
        | Some (JObj items) => match r with [] => Some (Some Group) | _ => says (JObj items) r end
        | Some v => match r with [] => Some (Some (Value (meaning k v))) | _ => Some None end
        end
      else None
  end.
(* the last file that says something decides *)
Definition last_says (files : list json) (path : list string) (before : option found) : option found :=
  fold_left (fun acc j => match says j path with Some r => r | None => acc end) files before.

(* a parsed dict has no duplicate keys *)
Fixpoint wf_json (j : json) : Prop :=
  match j with
  | JObj items => NoDup (map fst items) /\
      (fix all (l : list (string * json)) : Prop := match l with [] => True | kv :: r => wf_json (snd kv) /\ all r end) items
  | JArr l => (fix all (l : list json) : Prop := match l with [] => True | v :: r => wf_json v /\ all r end) l
  | _ => True
  end.
(* every angle in the file is a number *)
Fixpoint angles_ok (j : json) : Prop :=
  match j with
  | JObj items =>
      (fix all (l : list (string * json)) : Prop := match l with [] => True | kv :: r =>
         (public (fst kv) = true -> match snd kv with
           | JObj _ => angles_ok (snd kv)
           | JNum _ | JBool _ => True
           | _ => angle_name (fst kv) = false
           end) /\ all r end) items
  | _ => True
  end.
(* a group in this file meets a value in the configuration so far *)
Definition clash (j : json) (d : dict) : Prop :=
  exists path v, says j path = Some (Some Group) /\ attr d path = Some (Value v).
End Spec.
