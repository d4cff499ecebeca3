(** Model of /repo/body/chrumm/geo/face.py.  Polygons and triangles are lists of
    indexes into one list of points, as in the code. *)
From Coq Require Import ZArith List Bool Arith.
From Verif Require Import Num GeoModel EdgeModel.
Import ListNotations.
Open Scope num_scope.

Section FaceSec.
Context {N : Num}.
Notation eps6 := (nQ 1 1000000).

(* points[i]; every index the code uses is in range, the default is never read *)
Definition at_ (points : list vec) (i : nat) : vec := nth i points vzero.

(** ** _mergeHoles, face.py:58-136 *)

(* face.py:65 max(range(len(hole)), key=...): the first index whose point is not
   less than any other (max keeps the earlier one on ties) *)
Fixpoint argmaxFrom (points : list vec) (best i : nat) (bestIdx : nat) (l : list nat) : nat :=
  match l with
  | [] => best
  | h :: r => if vltb (at_ points bestIdx) (at_ points h) then argmaxFrom points i (S i) h r
              else argmaxFrom points best (S i) bestIdx r
  end.
Definition argmax (points : list vec) (hole : list nat) : nat :=
  match hole with [] => 0%nat | h :: r => argmaxFrom points 0 1 h r end.
(* face.py:66 hole[start:] + hole[:start] *)
Definition rotateTo (points : list vec) (hole : list nat) : list nat :=
  let start := argmax points hole in skipn start hole ++ firstn start hole.

(* face.py:69 sort(key=points[h[0]], reverse=True): Python reverses, sorts
   stably, reverses.  Stable insertion sort by __lt__ (see EdgeModel.vsort). *)
Definition holeKey (points : list vec) (h : list nat) : vec := at_ points (hd 0%nat h).
Fixpoint hinsert (points : list vec) (h : list nat) (l : list (list nat)) : list (list nat) :=
  match l with
  | [] => [h]
  | g :: r => if vltb (holeKey points h) (holeKey points g) then h :: l else g :: hinsert points h r
  end.
Definition sortHoles (points : list vec) (l : list (list nat)) : list (list nat) :=
  rev (fold_left (fun acc h => hinsert points h acc) (rev l) []).

(* face.py:84-87: the ray hit: b, c and vis; None stands for the initial
   b = c = Vector(math.inf), vis = None.  lt_inf x is the test x < math.inf *)
Definition hit := option (vec * vec * nat).
Definition lt_bx (lt_inf : num -> bool) (x : num) (h : hit) : bool :=
  match h with None => lt_inf x | Some (b, _, _) => x <? vx b end.
(* face.py:88-105: one iteration, segment i -> j *)
Definition rayStep (lt_inf : num -> bool) (points : list vec) (poly : list nat) (a : vec) (h : hit) (i : nat) : res hit :=
  let j := (S i mod length poly)%nat in
  let p := at_ points (nth i poly 0%nat) in
  let q := at_ points (nth j poly 0%nat) in
  if (vy p =? vy a) && (vy a =? vy q) then
    if (vx a <? vx p) && (vx a <? vx q) then
      if (vx p <? vx q) && lt_bx lt_inf (vx p) h then Ok (Some (p, p, i))
      else if lt_bx lt_inf (vx q) h then Ok (Some (q, q, j))
      else Ok h
    else Ok h
  else if (vy p <=? vy a) && (vy a <=? vy q) then
    d <- pdiv ((vy p - vy a) * (vx q - vx p)) (vy q - vy p) ;;
    let x := vx p - d in
    if (vx a <? x) && lt_bx lt_inf x h then
      Ok (Some (V x (vy a) (nZ 0), if vx q <? vx p then p else q, if vx q <? vx p then i else j))
    else Ok h
  else Ok h.
(* left to right loop with an accumulator *)
Fixpoint foldM {A B} (f : A -> B -> res A) (acc : A) (l : list B) : res A :=
  match l with
  | [] => Ok acc
  | x :: r => a <- f acc x ;; foldM f a r
  end.
Definition castRay (lt_inf : num -> bool) (points : list vec) (poly : list nat) (a : vec) : res hit :=
  foldM (rayStep lt_inf points poly a) None (seq 0 (length poly)).

(* face.py:119-123 *)
Definition insideSearch (a b c aDir bDir cDir p : vec) : bool :=
  (vx aDir * (vy a - vy p) - vy aDir * (vx a - vx p) <? - eps6) &&
  (vx bDir * (vy b - vy p) - vy bDir * (vx b - vx p) <? - eps6) &&
  (vx cDir * (vy c - vy p) - vy cDir * (vx c - vx p) <? - eps6).
(* face.py:125-127 *)
Definition isReflex (o p q : vec) : bool :=
  (vx p - vx o) * (vy q - vy p) - (vx q - vx p) * (vy p - vy o) <? nZ 0.
(* face.py:117-132: one iteration; None is minDist = math.inf *)
Definition betterStep (lt_inf : num -> bool) (points : list vec) (poly : list nat) (a b c aDir bDir cDir : vec)
    (st : option num * nat) (i : nat) : option num * nat :=
  let n := length poly in
  let p := at_ points (nth i poly 0%nat) in
  if insideSearch a b c aDir bDir cDir p then
    let o := at_ points (nth ((i + n - 1) mod n) poly 0%nat) in
    let q := at_ points (nth ((i + 1) mod n) poly 0%nat) in
    if isReflex o p q then
      let dist := (vx p - vx a) * (vx p - vx a) + (vy p - vy a) * (vy p - vy a) in
      if (match fst st with None => lt_inf dist | Some m => dist <? m end) then (Some dist, i) else st
    else st
  else st.
(* face.py:81-131: the position vis in the polygon to connect to.  vis = None
   makes list.insert raise TypeError (face.py:134) *)
Definition findVisible (lt_inf : num -> bool) (points : list vec) (poly : list nat) (a : vec) : res nat :=
  h <- castRay lt_inf points poly a ;;
  match h with
  | None => Err TypeErr
  | Some (b, c, vis) =>
      if veqb b c then Ok vis
      else
        let '(b, c) := if vy c <? vy b then (c, b) else (b, c) in
        aDir <- vnorm2D (vsub b a) ;; bDir <- vnorm2D (vsub c b) ;; cDir <- vnorm2D (vsub a c) ;;
        Ok (snd (fold_left (betterStep lt_inf points poly a b c aDir bDir cDir) (seq 0 (length poly)) (None, vis)))
  end.
(* face.py:133-136: the two inserts and the slice assignment *)
Definition spliceHole (poly : list nat) (vis : nat) (hole : list nat) : list nat :=
  firstn vis poly ++ [nth vis poly 0%nat] ++ hole ++ [hd 0%nat hole] ++ skipn vis poly.
(* face.py:72-136: one hole *)
Definition mergeHole (lt_inf : num -> bool) (points : list vec) (poly : list nat) (hole : list nat) : res (list nat) :=
  vis <- findVisible lt_inf points poly (holeKey points hole) ;; Ok (spliceHole poly vis hole).
(* face.py:58-136; max over an empty hole raises ValueError *)
Definition mergeHoles (lt_inf : num -> bool) (points : list vec) (poly : list nat) (holes : list (list nat)) : res (list nat) :=
  if existsb (fun h => match h with [] => true | _ => false end) holes then Err ValueErr
  else foldM (mergeHole lt_inf points) poly (sortHoles points (map (rotateTo points) holes)).

(** ** _cutEars, face.py:139-195 *)
Definition itri : Type := nat * nat * nat.
(* face.py:166: the cached values of one vertex *)
Record earInfo := mkEar { ear : itri; eaDir : vec; ebDir : vec; ecDir : vec;
  eaDot : num; ebDot : num; ecDot : num; eHeight : num }.
(* face.py:147-166: remaining[i - 1] is the last element for i = 0 *)
Definition earAt (points : list vec) (remaining : list nat) (i : nat) : res earInfo :=
  let n := length remaining in
  let ia := nth ((i + n - 1) mod n) remaining 0%nat in
  let ib := nth i remaining 0%nat in
  let ic := nth (S i mod n) remaining 0%nat in
  let a := at_ points ia in let b := at_ points ib in let c := at_ points ic in
  aDir <- vnorm2D (vsub b a) ;; bDir <- vnorm2D (vsub c b) ;; cDir <- vnorm2D (vsub a c) ;;
  let aDot := vy aDir * vx a - vx aDir * vy a + eps6 in
  let bDot := vy bDir * vx b - vx bDir * vy b + eps6 in
  let cDot := vy cDir * vx c - vx cDir * vy c + eps6 in
  Ok (mkEar (ia, ib, ic) aDir bDir cDir aDot bDot cDot (vx cDir * vy b - vy cDir * vx b + cDot)).
(* face.py:176 j in ear *)
Definition inEar (j : nat) (t : itri) : bool :=
  let '(x, y, z) := t in Nat.eqb j x || Nat.eqb j y || Nat.eqb j z.
(* face.py:178-182 *)
Definition blocks (points : list vec) (e : earInfo) (j : nat) : bool :=
  let p := at_ points j in
  (vy (ecDir e) * vx p - vx (ecDir e) * vy p <? ecDot e) &&
  (vy (ebDir e) * vx p - vx (ebDir e) * vy p <? ebDot e) &&
  (vy (eaDir e) * vx p - vx (eaDir e) * vy p <? eaDot e).
(* face.py:170-187: the ear is cut *)
Definition goodEar (points : list vec) (remaining : list nat) (e : earInfo) : bool :=
  negb (eHeight e <? nZ 0) && negb (existsb (fun j => negb (inEar j (ear e)) && blocks points e j) remaining).

(* list update; out of range leaves the list unchanged (never happens) *)
Fixpoint upd {A} (l : list A) (i : nat) (x : A) : list A :=
  match l, i with
  | [], _ => []
  | _ :: r, O => x :: r
  | y :: r, S i => y :: upd r i x
  end.
Definition del {A} (l : list A) (i : nat) : list A := firstn i l ++ skipn (S i) l.
(* face.py:145-193: the inner loop over i, with the cache; returns the new cache
   and the position that was cut, if any *)
Fixpoint searchEar (points : list vec) (remaining : list nat) (cache : list (option earInfo)) (is_ : list nat)
    : res (list (option earInfo) * option (nat * itri)) :=
  match is_ with
  | [] => Ok (cache, None)
  | i :: r =>
      e <- (match nth i cache None with Some e => Ok e | None => earAt points remaining i end) ;;
      let cache := upd cache i (Some e) in
      if goodEar points remaining e then Ok (cache, Some (i, ear e)) else searchEar points remaining cache r
  end.
(* face.py:190-192: del cache[i]; cache[i - 1] = None; cache[i % len(cache)] = None *)
Definition cutCache (cache : list (option earInfo)) (i : nat) : list (option earInfo) :=
  let c := del cache i in
  let n := length c in
  upd (upd c ((i + n - 1) mod n) None) (i mod n) None.
(* face.py:144-193: the outer loop *)
Fixpoint cutLoop (rounds : nat) (points : list vec) (remaining : list nat) (cache : list (option earInfo)) : res (list itri) :=
  match rounds with
  | O => Ok []
  | S rounds =>
      r <- searchEar points remaining cache (seq 0 (length remaining)) ;;
      match r with
      | (cache, None) => cutLoop rounds points remaining cache
      | (cache, Some (i, t)) => ts <- cutLoop rounds points (del remaining i) (cutCache cache i) ;; Ok (t :: ts)
      end
  end.
(* face.py:139-195 *)
Definition cutEars (points : list vec) (poly : list nat) : res (list itri) :=
  cutLoop (length poly - 2) points poly (repeat None (length poly)).

(** ** _flipTriangles, face.py:198-252 *)
Definition key : Type := nat * nat.
Definition keqb (k l : key) : bool := Nat.eqb (fst k) (fst l) && Nat.eqb (snd k) (snd l).
(* triangles are mutable three-element lists, referred to by position *)
Definition t3 (t : itri) (i : nat) : nat :=
  let '(x, y, z) := t in match i with O => x | S O => y | _ => z end.
(* list.index: raises ValueError when absent *)
Definition t3index (t : itri) (v : nat) : res nat :=
  let '(x, y, z) := t in
  if Nat.eqb x v then Ok 0%nat else if Nat.eqb y v then Ok 1%nat else if Nat.eqb z v then Ok 2%nat else Err ValueErr.
Definition t3set (t : itri) (i v : nat) : itri :=
  let '(x, y, z) := t in match i with O => (v, y, z) | S O => (x, v, z) | _ => (x, y, v) end.
(* t[i - 1], Python's index -1 is the last element *)
Definition t3prev (t : itri) (i : nat) : nat := t3 t (match i with O => 2 | S i => i end).
Definition t3keys (t : itri) : list key := let '(x, y, z) := t in [(z, x); (x, y); (y, z)].

(* a dict from directed edges to triangle positions, and a set of directed edges *)
Definition dict := key -> option nat.
Definition dset (d : dict) (k : key) (t : nat) : dict := fun l => if keqb k l then Some t else d l.
Definition ddel (d : dict) (k : key) : dict := fun l => if keqb k l then None else d l.
Definition sadd (k : key) (s : list key) : list key := if existsb (keqb k) s then s else s ++ [k].
Definition sremove (k : key) (s : list key) : list key := filter (fun l => negb (keqb k l)) s.
Record fstate := mkF { ftris : list itri; flookup : dict; frem : list key }.
(* face.py:200-201: later triangles overwrite earlier ones *)
Fixpoint initLookup (ts : list itri) (n : nat) (d : dict) : dict :=
  match ts with
  | [] => d
  | t :: r => initLookup r (S n) (fold_left (fun d k => dset d k n) (t3keys t) d)
  end.
Definition flipInit (ts : list itri) : fstate :=
  mkF ts (initLookup ts 0 (fun _ => None)) (fold_left (fun s k => sadd k s) (concat (map t3keys ts)) []).

(* face.py:220-228 *)
Definition isDelaunay (points : list vec) (a b c d : nat) : bool :=
  let da := vsub (at_ points a) (at_ points d) in
  let db := vsub (at_ points b) (at_ points d) in
  let dc := vsub (at_ points c) (at_ points d) in
  (vx da * vx da + vy da * vy da) * (vx db * vy dc - vx dc * vy db) -
  (vx db * vx db + vy db * vy db) * (vx da * vy dc - vx dc * vy da) +
  (vx dc * vx dc + vy dc * vy dc) * (vx da * vy db - vx db * vy da) <? eps6.
(* face.py:203-252: the loop body for the popped edge (a, b) *)
Definition flipStep (points : list vec) (k : key) (st : fstate) : res fstate :=
  let '(a, b) := k in
  let rem := sremove k (frem st) in
  match flookup st (a, b), flookup st (b, a) with
  | Some i0, Some i1 =>
      let tri0 := nth i0 (ftris st) (0, 0, 0)%nat in
      let tri1 := nth i1 (ftris st) (0, 0, 0)%nat in
      ia0 <- t3index tri0 a ;; let c := t3prev tri0 ia0 in
      ib1 <- t3index tri1 b ;; let d := t3prev tri1 ib1 in
      if isDelaunay points a b c d then Ok (mkF (ftris st) (flookup st) rem)
      else
        ib0 <- t3index tri0 b ;;
        let ts := upd (ftris st) i0 (t3set tri0 ib0 d) in
        ia1 <- t3index (nth i1 ts (0, 0, 0)%nat) a ;;
        let ts := upd ts i1 (t3set (nth i1 ts (0, 0, 0)%nat) ia1 c) in
        let l := ddel (ddel (flookup st) (a, b)) (b, a) in
        let l := dset (dset (dset l (d, c) i0) (c, a) i0) (a, d) i0 in
        let l := dset (dset (dset l (c, d) i1) (d, b) i1) (b, c) i1 in
        Ok (mkF ts l (sadd (b, c) (sadd (d, b) (sadd (a, d) (sadd (c, a) rem)))))
  | _, _ => Ok (mkF (ftris st) (flookup st) rem)
  end.
(* face.py:203: while remaining, pop an arbitrary element.  set.pop takes
   whatever element the hash table yields; here the caller's sched decides,
   and the theorems hold for every sched.  fuel bounds the iterations. *)
Fixpoint flipLoop (fuel : nat) (points : list vec) (sched : nat -> nat) (st : fstate) : res (list itri) :=
  match frem st with
  | [] => Ok (ftris st)
  | k0 :: _ =>
      match fuel with
      | O => Err OutOfFuel
      | S fuel =>
          st' <- flipStep points (nth (sched fuel mod length (frem st)) (frem st) k0) st ;;
          flipLoop fuel points sched st'
      end
  end.
Definition flipTriangles (fuel : nat) (sched : nat -> nat) (points : list vec) (ts : list itri) : res (list itri) :=
  flipLoop fuel points sched (flipInit ts).

(** ** triangulate, face.py:27-55 *)
(* face.py:37-42: consecutive index ranges of the non-empty holes *)
Fixpoint holeRanges (start : nat) (holes : list (list vec)) : list (list nat) :=
  match holes with
  | [] => []
  | [] :: r => holeRanges start r
  | h :: r => seq start (length h) :: holeRanges (start + length h) r
  end.
(* face.py:44-46 *)
Definition uprightPoints (edge : list vec) (realPoints : list vec) : res (list vec) :=
  n <- surfaceNormal edge ;; m <- fromAlignment n (V (nZ 0) (nZ 0) (nZ 1)) ;;
  Ok (map (fun p => vxy (transformed p m)) realPoints).
Definition triangulate (lt_inf : num -> bool) (fuel : nat) (sched : nat -> nat) (edge : list vec) (holes : list (list vec)) : res (list tri) :=
  let realPoints := edge ++ concat holes in
  pts <- uprightPoints edge realPoints ;;
  poly <- mergeHoles lt_inf pts (seq 0 (length edge)) (holeRanges (length edge) holes) ;;
  ears <- cutEars pts poly ;;
  ts <- flipTriangles fuel sched pts ears ;;
  Ok (map (fun t : itri => let '(i, j, k) := t in mkTri (at_ realPoints i) (at_ realPoints j) (at_ realPoints k)) ts).
End FaceSec.
