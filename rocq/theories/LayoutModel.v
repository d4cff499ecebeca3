(** Model of /repo/body/chrumm/part/layout.py. *)
From Coq Require Import ZArith List Bool.
From Verif Require Import Num GeoModel EdgeModel ArcModel MeshModel KeyModel.
Import ListNotations.
Open Scope num_scope.

Section Layout.
Context {N : Num}.
Notation "0" := (nZ 0%Z) : num_scope.
Notation "1" := (nZ 1%Z) : num_scope.

(* an entry of layout.fingerStaggers: a number or a list of numbers (layout.py:53) *)
Inductive stagger := SNum (y : num) | SList (l : list num).
(* cfg.layout as read by layout.py:20-25 (the pitches are in key_cfg) *)
Record layout_cfg := mkLayoutCfg {
  fingerStaggers : list (list (list stagger));
  thumbUnits : list (list num); thumbAngles : list (list num); thumbOffsets : list (list num) }.
Variable kc : @key_cfg N.
Variable c : layout_cfg.

(* l[i] with Python's negative indices *)
Definition pyidx {A} (l : list A) (i : Z) : res A :=
  let j := if (i <? 0)%Z then Z.add (Z.of_nat (length l)) i else i in
  if (j <? 0)%Z then Err IndexErr
  else match nth_error l (Z.to_nat j) with Some x => Ok x | None => Err IndexErr end.

(* layout.py:31-33: any(len(row[i]) != len(staggers[0][i]) for i in range(4)); row has length 4,
   and so has staggers[0], which is checked first *)
Definition rowOk (first row : list (list stagger)) : bool :=
  Nat.eqb (length row) 4 &&
  forallb (fun i => Nat.eqb (length (nth i row [])) (length (nth i first []))) (seq 0 4).
Definition staggersOk : bool := forallb (rowOk (hd [] (fingerStaggers c))) (fingerStaggers c).
(* layout.py:35-39 *)
Definition thumbsOk : bool :=
  Nat.eqb (length (thumbUnits c)) 2 && Nat.eqb (length (thumbAngles c)) 2 &&
  Nat.eqb (length (nth 0 (thumbUnits c) [])) (length (nth 0 (thumbAngles c) [])) &&
  Nat.eqb (length (nth 1 (thumbUnits c) [])) (length (nth 1 (thumbAngles c) [])).

(* l[::sign] for sign = 1 (back = false) or -1 (back = true) *)
Definition dirList {A} (back : bool) (l : list A) : list A := if back then rev l else l.
Definition signZ (back : bool) : Z := if back then (-1)%Z else 1%Z.

(* layout.py:50-61: one key, or none for an empty stagger *)
Definition fingerKey (fac : factory) (back : bool) (row col : nat) (s : stagger) : option key :=
  let l := match s with SNum y => [y] | SList l => l end in
  match l with
  | [] => None
  | [y] => Some (ktranslate (newKey kc fac 1) (V (nZ (Z.of_nat col) * columnPitch kc + 0) (nZ (- Z.of_nat row)%Z * rowPitch kc + y) 0))
  | x :: y :: _ => Some (ktranslate (newKey kc fac 1) (V (nZ (Z.of_nat col) * columnPitch kc + x * nZ (signZ back)) (nZ (- Z.of_nat row)%Z * rowPitch kc + y) 0))
  end.
(* layout.py:48-64: the groups of a row; col runs on across groups *)
Fixpoint fingerGroup (fac : factory) (back : bool) (row col : nat) (g : list stagger) : list (option key) :=
  match g with [] => [] | s :: r => fingerKey fac back row col s :: fingerGroup fac back row (S col) r end.
Fixpoint fingerRow (fac : factory) (back : bool) (row col : nat) (gs : list (list stagger)) : list (list (option key)) :=
  match gs with
  | [] => []
  | g :: r => fingerGroup fac back row col (dirList back g) :: fingerRow fac back row (col + length g) r
  end.
(* layout.py:43-65 *)
Definition initFingers (fac : factory) (back : bool) : list (list (list (option key))) :=
  map (fun ir => fingerRow fac back (fst ir) 0 (skipn 2 (dirList back (snd ir))))
      (combine (seq 0 (length (fingerStaggers c))) (fingerStaggers c)).

(* the present keys of a list *)
Definition present {A} (l : list (option A)) : list A := flat_map (fun o => match o with Some k => [k] | None => [] end) l.

(* layout.py:15-18 *)
Record layout := mkLayout {
  fingersL : list (list (list (option key))); fingersR : list (list (list (option key)));
  thumbL : list key; thumbR : list key }.
Inductive side := SideLeft | SideRight | SideBoth.

(* layout.py:125-131 *)
Definition halves (y : layout) (s : side) : list (list (list (list (option key)))) :=
  match s with SideRight => [fingersR y] | SideLeft => [fingersL y] | SideBoth => [fingersR y; fingersL y] end.
(* layout.py:133-137; row[group] raises IndexError if the row is too short, which
   cannot happen: every row has two groups *)
Definition lgroup (y : layout) (g : nat) (s : side) : list key :=
  flat_map (fun half => flat_map (fun row => present (nth g row [])) half) (halves y s).
(* layout.py:139-143 *)
Definition lcol (y : layout) (g : nat) (index : Z) (s : side) : res (list key) :=
  hs <- mapM (fun half => ks <- mapM (fun row => pyidx (nth g row []) index) half ;; Ok (present ks)) (halves y s) ;;
  Ok (concat hs).
(* layout.py:145-150 *)
Definition lperCol (y : layout) (g : nat) (index : Z) (s : side) : res (list key) :=
  hs <- mapM (fun half =>
    first <- pyidx half 0 ;;
    mapM (fun col => ks <- lcol y g (Z.of_nat col) s ;; pyidx ks index) (seq 0 (length (nth g first [])))) (halves y s) ;;
  Ok (concat hs).
(* layout.py:117-123 *)
Definition lthumb (y : layout) (s : side) : list key :=
  match s with SideRight => thumbR y | SideLeft => thumbL y | SideBoth => thumbR y ++ thumbL y end.
(* layout.py:90-97 *)
Definition alnum (y : layout) (s : side) : list key := lgroup y 0 s.
Definition pinky (y : layout) (s : side) : list key := lgroup y 1 s.
Definition lall (y : layout) (s : side) : list key := alnum y s ++ pinky y s ++ lthumb y s.
(* layout.py:99-109 *)
Definition alnumCol (y : layout) (i : Z) (s : side) : res (list key) := lcol y 0 i s.
Definition perAlnumCol (y : layout) (i : Z) (s : side) : res (list key) := lperCol y 0 i s.
Definition perPinkyCol (y : layout) (i : Z) (s : side) : res (list key) := lperCol y 1 i s.
(* max(.., key=position) and min(.., key=position): the first of the best *)
Definition bestKey (better : vec -> vec -> bool) (l : list key) : res key :=
  match l with
  | [] => Err ValueErr
  | k :: r => Ok (fold_left (fun best x => if better (kposition best) (kposition x) then x else best) r k)
  end.
(* layout.py:111-115 *)
Definition maxAlnum (y : layout) (s : side) : res key := bestKey (fun b x => vltb b x) (alnum y s).
Definition minPinky (y : layout) (s : side) : res key := bestKey (fun b x => vltb x b) (pinky y s).

(* math.radians *)
Definition radians (x : num) : num := x * ndiv npi (nZ 180).
(* layout.py:80-85: the loop over units and angles; new keys are put in front *)
Fixpoint thumbLoop (fac : factory) (ua : list (num * num)) (pivot : vec) (target : list key) : list key :=
  match ua with
  | [] => target
  | (unit, angle) :: r =>
      let k := newKey kc fac unit in
      let k := ktransform k (mrotZ mid (radians angle) None) in
      let k := ktranslate k (vsub pivot (capPivotR k)) in
      thumbLoop fac r (capPivotL k) (k :: target)
  end.
(* layout.py:72-80 *)
Definition initThumb (fac : factory) (y : layout) (s : side) (index : nat) (back : bool) : res (list key) :=
  units <- pyidx (thumbUnits c) (Z.of_nat index) ;;
  angles <- pyidx (thumbAngles c) (Z.of_nat index) ;;
  offset <- pyidx (thumbOffsets c) (Z.of_nat index) ;;
  col <- alnumCol y (-1)%Z s ;;
  start <- pyidx col (-1)%Z ;;
  ox <- pyidx offset 0%Z ;; oy <- pyidx offset 1%Z ;;
  let pivot := vsub (capPivotR start) (V ox (rowPitch kc + oy) 0) in
  Ok (thumbLoop fac (combine (dirList back units) (dirList back angles)) pivot []).

(* layout.py:14-88 *)
Definition newLayout : res layout :=
  fac <- keyFactory kc ;;
  if negb staggersOk then Err ValueErr
  else if negb thumbsOk then Err ValueErr
  else
    let y0 := mkLayout (initFingers fac true) (initFingers fac false) [] [] in
    tl <- initThumb fac y0 SideLeft 0 false ;;
    tr <- initThumb fac y0 SideRight 1 true ;;
    Ok (mkLayout (fingersL y0) (fingersR y0) tl tr).
End Layout.
