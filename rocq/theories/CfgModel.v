(** Model of /repo/body/chrumm/cfg.py. *)
From Coq Require Import Ascii String ZArith NArith List Bool.
From Verif Require Import Num FaceModel.
Import ListNotations.
Open Scope string_scope.

Section Cfg.
Context {N : Num}.
(* math.radians, cfg.py:18.  A JSON integer too large for a float (OverflowError)
   is not modelled: JSON numbers are num here *)
Variable radians : num -> num.

(* what json.loads returns; a dict is the list of its items, in order *)
Inductive json :=
| JNull | JBool (b : bool) | JNum (x : num) | JStr (s : string)
| JArr (l : list json) | JObj (items : list (string * json)).

(* an attribute of the cfg module: a JSON value or a SimpleNamespace with its
   __dict__.  Dicts keep insertion order. *)
Inductive cval := CLeaf (v : json) | CNs (d : list (string * cval)).
Definition dict := list (string * cval).
Fixpoint dget (d : dict) (k : string) : option cval :=
  match d with
  | [] => None
  | (l, v) :: r => if String.eqb k l then Some v else dget r k
  end.
(* target[key] = value: in place if the key exists, else at the end *)
Fixpoint dput (d : dict) (k : string) (v : cval) : dict :=
  match d with
  | [] => [(k, v)]
  | (l, w) :: r => if String.eqb k l then (l, v) :: r else (l, w) :: dput r k v
  end.

(* str.isidentifier, for ASCII keys *)
Definition letter (c : ascii) : bool :=
  let n := N_of_ascii c in
  ((65 <=? n) && (n <=? 90) || (97 <=? n) && (n <=? 122) || (n =? 95))%N.
Definition digit (c : ascii) : bool := let n := N_of_ascii c in ((48 <=? n) && (n <=? 57))%N.
Fixpoint all_chars (f : ascii -> bool) (s : string) : bool :=
  match s with EmptyString => true | String c r => f c && all_chars f r end.
Definition isidentifier (s : string) : bool :=
  match s with EmptyString => false | String c r => letter c && all_chars (fun c => letter c || digit c) r end.
(* key.startswith("_") *)
Definition underscored (s : string) : bool :=
  match s with EmptyString => false | String c _ => Ascii.eqb c "_" end.
(* str.lower, for ASCII keys *)
Definition lower_char (c : ascii) : ascii :=
  let n := N_of_ascii c in if ((65 <=? n) && (n <=? 90))%N then ascii_of_N (n + 32) else c.
Fixpoint lower (s : string) : string :=
  match s with EmptyString => "" | String c r => String (lower_char c) (lower r) end.
(* str.endswith *)
Fixpoint endswith (s suffix : string) : bool :=
  String.eqb s suffix || match s with EmptyString => false | String _ r => endswith r suffix end.

(* cfg.py:16-19: math.radians raises TypeError unless the value is a number;
   True and False count as 1 and 0 *)
Definition leafValue (key : string) (v : json) : res json :=
  if endswith (lower key) "angle" then
    match v with
    | JNum x => Ok (JNum (radians x))
    | JBool b => Ok (JNum (radians (nZ (if b then 1%Z else 0%Z))))
    | _ => Err TypeErr
    end
  else Ok v.
(* cfg.py:9-19 mergeDicts; a JSON value that is not an object has no .items() and
   an existing JSON value has no __dict__ (AttributeError in both cases) *)
Fixpoint mergeDicts (source : json) : dict -> res dict :=
  match source with
  | JObj items =>
      (fix go (items : list (string * json)) (t : dict) {struct items} : res dict :=
        match items with
        | [] => Ok t
        | (k, v) :: r =>
            t' <- (if isidentifier k && negb (underscored k) then
                     match v with
                     | JObj _ =>
                         match dget t k with
                         | None => d <- mergeDicts v [] ;; Ok (dput t k (CNs d))
                         | Some (CNs d) => d <- mergeDicts v d ;; Ok (dput t k (CNs d))
                         | Some (CLeaf _) => Err AttrErr
                         end
                     | _ => w <- leafValue k v ;; Ok (dput t k (CLeaf w))
                     end
                   else Ok t) ;;
            go r t'
        end) items
  | _ => fun _ => Err AttrErr
  end.
(* cfg.py:1-27 _init; parse is json.loads, globals the module's dictionary *)
Definition cfgInit (parse : string -> res json) (globals : dict) (jsonStrings : list string) : res dict :=
  foldM (fun g s => j <- parse s ;; mergeDicts j g)
    (filter (fun kv => underscored (fst kv)) globals) jsonStrings.
End Cfg.
