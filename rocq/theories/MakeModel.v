(** Model of /repo/body/chrumm/make.py. *)
From Coq Require Import Ascii String ZArith List Bool.
From Verif Require Import Num GeoModel FaceModel CfgModel CfgSpec StlModel.
Import ListNotations.
Open Scope string_scope.

(** ** multiprocessing.Pool.map (CPython), used at make.py:91-92 *)
(* Pool._map_async: chunksize, extra = divmod(len(iterable), len(pool) * 4), plus
   one if there is a rest *)
Definition chunksize (threads n : nat) : nat :=
  (n / (threads * 4) + (if Nat.eqb (n mod (threads * 4)) 0 then 0 else 1))%nat.
(* Pool._get_tasks: consecutive slices of that size *)
Fixpoint chunksOf {A} (fuel size : nat) (l : list A) : list (list A) :=
  match fuel, l with
  | O, _ | _, [] => []
  | S fuel, _ => firstn size l :: chunksOf fuel size (skipn size l)
  end.
(* MapResult: the values so far and the first failure to arrive *)
Record mapResult (B : Type) := mkMR { mrValue : list (option B); mrError : option exn }.
Arguments mkMR {B}. Arguments mrValue {B}. Arguments mrError {B}.
(* MapResult._set for chunk i: a worker has run the chunk (mapstar) *)
Definition mrSet {A B} (f : A -> res B) (size : nat) (tasks : list (list A)) (st : mapResult B) (i : nat) : mapResult B :=
  match mapM f (nth i tasks []) with
  | Ok ys => mkMR (firstn (i * size) (mrValue st) ++ map Some ys ++ skipn ((i + 1) * size) (mrValue st))%list (mrError st)
  | Err e => mkMR (mrValue st) (match mrError st with Some e0 => Some e0 | None => Some e end)
  end.
(* Pool.map: the n chunks finish in the order done n; map waits for all of them,
   then returns the list or raises *)
Definition poolMap {A B} (f : A -> res B) (threads : nat) (done : nat -> list nat) (l : list A) : res (list (option B)) :=
  let size := chunksize threads (length l) in
  let tasks := chunksOf (length l) size l in
  let st := fold_left (mrSet f size tasks) (done (length tasks)) (mkMR (repeat None (length l)) None) in
  match mrError st with Some e => Err e | None => Ok (mrValue st) end.

Section Make.
Context {N : Num}.
Variable radians : num -> num.
Variable parse : string -> res json.                       (* json.loads *)
Variable version : string.                                 (* chrumm.__version__ *)
Variable f32 : num -> res bytes.                           (* struct.pack("<f") *)
(* The constructors of make.py:52-79 as functions of the configuration; they do
   not change their arguments.  faces, triangles of a part: *)
Variable face : Type.
Variable triangulate : face -> res (list tri).             (* Face.triangulate *)
Record part := mkPart { pfaces : list face; ptriangles : list tri }.
Variable plan body : Type.
Variable bodyPart : body -> part.
Variable mkKnob : dict -> res (list tri).
Variable mkPlan : dict -> string -> res plan.
Variable mkBody : dict -> plan -> res body.
Variable mkFloor : dict -> plan -> body -> res part.
Variable mkPalm mkSupport : dict -> plan -> res part.
Variable mkPcb : dict -> plan -> plan -> res string.       (* pcb.toKiCadFootprint *)

Inductive data := Bytes (b : bytes) | Text (s : string).

(* bool() of an attribute; a missing one raises AttributeError *)
Definition truth (f : found) : bool :=
  match f with
  | Group => true
  | Value JNull => false
  | Value (JBool b) => b
  | Value (JNum x) => negb (neqb x (nZ 0))
  | Value (JStr s) => negb (String.eqb s "")
  | Value (JArr l) => match l with [] => false | _ => true end
  | Value (JObj l) => match l with [] => false | _ => true end
  end.
Definition truthy (g : dict) (k : string) : res bool :=
  match attr g [k] with Some f => Ok (truth f) | None => Err AttrErr end.
(* make.py:37-50: maker and quality must exist; testing bumpscosity for
   membership in a dict raises TypeError if it is unhashable *)
Definition preamble (g : dict) : res unit :=
  match attr g ["maker"] with
  | None => Err AttrErr
  | Some _ =>
      match attr g ["quality"] with
      | None => Err AttrErr
      | Some _ =>
          match attr g ["quality"; "bumpscosity"] with
          | Some Group | Some (Value (JArr _)) | Some (Value (JObj _)) => Err TypeErr
          | _ => Ok tt
          end
      end
  end.

(* make.py:63-76 *)
Definition makeParts (g : dict) (planR planL : plan) : res (list (string * part)) :=
  bR <- mkBody g planR ;; bL <- mkBody g planL ;;
  fR <- mkFloor g planR bR ;; fL <- mkFloor g planL bL ;;
  palm <- truthy g "palm" ;;
  ps <- (if palm then pR <- mkPalm g planR ;; pL <- mkPalm g planL ;; Ok [("palm-right", pR); ("palm-left", pL)] else Ok []) ;;
  support <- truthy g "support" ;;
  ss <- (if support then sR <- mkSupport g planR ;; sL <- mkSupport g planL ;; Ok [("support-right", sR); ("support-left", sL)] else Ok []) ;;
  Ok ([("body-right", bodyPart bR); ("body-left", bodyPart bL); ("floor-right", fR); ("floor-left", fL)] ++ ps ++ ss)%list.
(* make.py:84-92; faces[0] of an empty list raises IndexError *)
Definition triangulateAll (threads : Z) (done : nat -> list nat) (faces : list face) : res (list (option (list tri))) :=
  if (threads <=? 1)%Z then rmap (map Some) (mapM triangulate faces)
  else match faces with
       | [] => Err IndexErr
       | _ => poolMap triangulate (Z.to_nat threads) done faces
       end.
(* "left" in name *)
Fixpoint contains (s sub : string) : bool :=
  String.prefix sub s || match s with EmptyString => false | String _ r => contains r sub end.
(* make.py:100-101: pop one result per face; extending by None would raise TypeError *)
Fixpoint popTriangles (faces : list face) (ft : list (option (list tri))) (acc : list tri) : res (list tri * list (option (list tri))) :=
  match faces with
  | [] => Ok (acc, ft)
  | _ :: r => match ft with
              | [] => Err IndexErr
              | Some ts :: ft => popTriangles r ft (acc ++ ts)%list
              | None :: _ => Err TypeErr
              end
  end.
(* make.py:96-103 *)
Fixpoint combineTriangles (parts : list (string * part)) (ft : list (option (list tri))) : res (list (string * list tri)) :=
  match parts with
  | [] => Ok []
  | (name, p) :: r =>
      x <- popTriangles (pfaces p) ft (ptriangles p) ;;
      let '(ts, ft) := x in
      let ts := if contains name "left" then map (fun t => treversed (tmirX t)) ts else ts in
      rest <- combineTriangles r ft ;;
      Ok ((name, ts) :: rest)
  end.
(* make.py:21-109 *)
Definition make (globals : dict) (jsonStrings : list string) (threads : Z) (done : nat -> list nat) (isKnobOnly : bool)
    : res (list (string * data)) :=
  g <- cfgInit radians parse globals jsonStrings ;;
  _ <- preamble g ;;
  knob <- truthy g "knob" ;;
  files <- (if knob then ts <- mkKnob g ;; bs <- toBytes f32 version ts ;; Ok [("rotary-knob.stl", Bytes bs)] else Ok []) ;;
  if isKnobOnly then Ok files
  else
    planR <- mkPlan g "right" ;; planL <- mkPlan g "left" ;;
    parts <- makeParts g planR planL ;;
    pcb <- truthy g "pcb" ;;
    pcbFiles <- (if pcb then s <- mkPcb g planR planL ;; Ok [("pcb-positions.kicad_mod", Text s)] else Ok []) ;;
    ft <- triangulateAll threads done (flat_map (fun np => pfaces (snd np)) parts) ;;
    triangles <- combineTriangles parts ft ;;
    stls <- mapM (fun nt : string * list tri => bs <- toBytes f32 version (snd nt) ;; Ok (fst nt ++ ".stl", Bytes bs)) triangles ;;
    Ok (files ++ pcbFiles ++ stls)%list.
End Make.
