(** Model of /repo/body/chrumm/geo/edge.py.  An Edge is a list of vectors. *)
From Coq Require Import ZArith List Bool Arith.
From Verif Require Import Num GeoModel.
Import ListNotations.
Open Scope num_scope.

Section EdgeSec.
Context {N : Num}.

(* edge.py:12-14, 41-46: the nested arguments of Edge(...) / add(...):
   a vector, or any iterable of arguments *)
Inductive earg := AVec (v : vec) | AIter (l : list earg).
Fixpoint eadd1 (x : earg) : list vec :=
  match x with
  | AVec v => [v]
  | AIter l => (fix go (l : list earg) : list vec := match l with [] => [] | y :: r => eadd1 y ++ go r end) l
  end.
Definition newEdge (args : list earg) : list vec := eadd1 (AIter args).

(* edge.py:20 sorted(...): stable insertion sort by __lt__ (Python's sort calls only <;
   for a total order every stable sort gives the same list) *)
Fixpoint vinsert (v : vec) (l : list vec) : list vec :=
  match l with
  | [] => [v]
  | w :: r => if vltb v w then v :: l else w :: vinsert v r
  end.
(* insert each element after the ones that are not greater: stable *)
Fixpoint vsort_acc (l acc : list vec) : list vec :=
  match l with [] => acc | v :: r => vsort_acc r (vinsert v acc) end.
Definition vsort (l : list vec) : list vec := vsort_acc l [].

(* edge.py:25, 30: the z component of (p - v) x (q - v) *)
Definition turn (p q v : vec) : num := vz (vcross (vsub p v) (vsub q v)).
(* edge.py:24-27: one step of the monotone chain; the chain is kept reversed
   (its head is lower[-1]) *)
Fixpoint hull_pop (st : list vec) (v : vec) : list vec :=
  match st with
  | q :: ((p :: _) as r) => if turn p q v <=? nZ 0 then hull_pop r v else st
  | _ => st
  end.
Definition hull_step (st : list vec) (v : vec) : list vec := v :: hull_pop st v.
Definition hull_chain (l : list vec) : list vec := rev (fold_left hull_step l []).
(* edge.py:17-34; x[:-1] is removelast *)
Definition convexHull2D (vectors : list vec) : list vec :=
  let s := vsort (map vxy vectors) in
  removelast (hull_chain s) ++ removelast (hull_chain (rev s)).

(* edge.py:36-39 *)
Fixpoint segs_open (l : list vec) : list segment :=
  match l with
  | a :: ((b :: _) as r) => mkSeg a b :: segs_open r
  | _ => []
  end.
Definition toSegments (l : list vec) (isClosed : bool) : list segment :=
  match l with
  | [] => []
  | a :: _ => segs_open l ++ (if isClosed then [mkSeg (last l a) a] else [])
  end.

(* edge.py:48-82 *)
Definition exy := map vxy. Definition exz := map vxz. Definition eyz := map vyz.
Definition emirX := map vmirX. Definition emirY := map vmirY. Definition emirZ := map vmirZ.
Definition escaled (l : list vec) (s : num) (center : vec) : list vec :=
  map (fun v => vadd (vscale (vsub v center) s) center) l.
Definition etranslated (l : list vec) (v : vec) : list vec := map (fun p => vadd p v) l.
Definition etransformed (l : list vec) (m : mtx) : list vec := map (fun p => transformed p m) l.
Definition esnapped := map vsnapped.

(* edge.py:84-86 *)
Definition collapsed (l : list vec) (threshold : num) : list vec :=
  map sa (filter (fun s => threshold <=? smag s) (toSegments l true)).

(* edge.py:97-101, 158-162: number of segments; the Python value -1 for an
   empty open edge is truncated to 0, which gives the same ranges *)
Definition endIdx (l : list vec) (isClosed : bool) : nat := (length l + (if isClosed then 1 else 0) - 1)%nat.
(* edge.py:104-107: data[min(end, i) % len]; x % 0 raises ZeroDivisionError *)
Definition ept (l : list vec) (isClosed : bool) (i : nat) : res vec :=
  match length l with
  | O => Err ZeroDivision
  | n => match nth_error l (Nat.min (endIdx l isClosed) i mod n) with Some v => Ok v | None => Err IndexErr end
  end.

(* edge.py:123-127: rows of the lookup table, as (abc, cda, abd, dbc) flags *)
Definition quad_table (dbc abd cda abc : bool) : bool * bool * bool * bool :=
  match dbc, abd, cda, abc with
  | false, false, true, true  => (true, false, false, false)
  | false, true, false, true  => (true, false, false, false)
  | false, true, true, false  => (false, true, false, false)
  | false, true, true, true   => (true, true, false, false)
  | true, false, false, true  => (true, false, false, false)
  | true, false, true, false  => (false, true, false, false)
  | true, false, true, true   => (true, true, false, false)
  | true, true, false, false  => (false, false, true, false)
  | true, true, false, true   => (false, false, true, true)
  | true, true, true, false   => (false, false, true, true)
  | true, true, true, true    => (true, true, false, false)
  | _, _, _, _                => (false, false, false, false)
  end.
Definition all_valid (dbc abd cda abc : bool) : bool := dbc && abd && cda && abc.

(* edge.py:115-146: the triangles of one quad *)
Definition meshQuad (a b c d : vec) : res (list tri) :=
  let abc := mkTri a b c in
  let cda := mkTri c d a in
  let abd := mkTri a b d in
  let dbc := mkTri d b c in
  vdbc <- tbool dbc ;; vabd <- tbool abd ;; vcda <- tbool cda ;; vabc <- tbool abc ;;
  bits <- (if all_valid vdbc vabd vcda vabc then
             abcAngle <- vangle (vsub a b) (vsub c b) ;;
             cdaAngle <- vangle (vsub c d) (vsub a d) ;;
             Ok (if npi + nQ 1 1000000 <? abcAngle + cdaAngle
                 then (false, false, true, true) else quad_table vdbc vabd vcda vabc)
           else Ok (quad_table vdbc vabd vcda vabc)) ;;
  let '(babc, bcda, babd, bdbc) := bits in
  Ok ((if babc then [abc] else []) ++ (if bcda then [cda] else []) ++
      (if babd then [abd] else []) ++ (if bdbc then [dbc] else [])).

(* edge.py:103-107: quad number i *)
Definition quadAt (s o : list vec) (cl : bool) (i : nat) : res (list tri) :=
  a <- ept s cl i ;; b <- ept s cl (S i) ;; c <- ept o cl (S i) ;; d <- ept o cl i ;;
  meshQuad a b c d.
(* edge.py:88-148 *)
Definition meshPairwise (s o : list vec) (cl : bool) : res (list tri) :=
  l <- mapM (quadAt s o cl) (seq 0 (Nat.max (endIdx o cl) (endIdx s cl))) ;; Ok (concat l).

(* edge.py:184-206: true = advance on self (abd), false = advance on other (acd) *)
Definition parallelChoice (prev : option tri) (abd acd : tri) : res bool :=
  dev <- (match prev with
          | None => Ok None
          | Some t =>
              prevNorm <- tnormal t ;;
              n1 <- tnormal abd ;; abdDev <- vangle n1 prevNorm ;;
              n2 <- tnormal acd ;; acdDev <- vangle n2 prevNorm ;;
              tau16 <- pdiv (nZ 2 * npi) (nZ 16) ;;
              Ok (if abdDev <? acdDev - tau16 then Some true
                  else if acdDev <? abdDev - tau16 then Some false else None)
          end) ;;
  match dev with
  | Some b => Ok b
  | None => r1 <- tcircumradius abd ;; r2 <- tcircumradius acd ;; Ok (r1 <? r2 + nQ 1 1000000)
  end.
(* edge.py:164-208: the while loop; fuel bounds the number of iterations and is
   proved to suffice.  out is reversed. *)
Fixpoint parallelLoop (fuel : nat) (s o : list vec) (cl : bool) (i j : nat) (out : list tri) : res (list tri) :=
  let se := endIdx s cl in let oe := endIdx o cl in
  if (i <? se)%nat || (j <? oe)%nat then
    match fuel with
    | O => Err AssertErr
    | S fuel =>
        a <- ept s cl i ;; b <- ept s cl (S i) ;; c <- ept o cl (S j) ;; d <- ept o cl j ;;
        let abd := mkTri a b d in
        let acd := mkTri a c d in
        if (se <=? i)%nat then parallelLoop fuel s o cl i (S j) (acd :: out)
        else if (oe <=? j)%nat then parallelLoop fuel s o cl (S i) j (abd :: out)
        else
          ch <- parallelChoice (hd_error out) abd acd ;;
          if (ch : bool) then parallelLoop fuel s o cl (S i) j (abd :: out)
          else parallelLoop fuel s o cl i (S j) (acd :: out)
    end
  else Ok (rev out).
Definition meshParallel (s o : list vec) (cl : bool) : res (list tri) :=
  parallelLoop (endIdx s cl + endIdx o cl) s o cl 0 0 [].

(* edge.py:217-224; data[i-1] for i = 0 is the last point *)
Definition crosses (v a b : vec) : res bool :=
  if xorb (vy v <? vy a) (vy v <? vy b) then
    q <- pdiv ((vx b - vx a) * (vy v - vy a)) (vy b - vy a) ;;
    Ok (vx v <? q + vx a)
  else Ok false.
Fixpoint containsLoop (v prev : vec) (l : list vec) (isIn : bool) : res bool :=
  match l with
  | [] => Ok isIn
  | b :: r => c <- crosses v prev b ;; containsLoop v b r (xorb isIn c)
  end.
Definition contains2D (l : list vec) (v : vec) : res bool :=
  match l with
  | [] => Ok false
  | a :: _ => containsLoop v (last l a) l false
  end.

(* Python min(...) over a non-empty generator; an empty one raises ValueError *)
Definition minList (l : list num) : res num :=
  match l with
  | [] => Err ValueErr
  | x :: r => Ok (fold_left pmin r x)
  end.
(* edge.py:226-230 *)
Definition edistance2D (l : list vec) (v : vec) : res num :=
  inside <- contains2D l v ;;
  if (inside : bool) then Ok (nZ 0)
  else ds <- mapM (fun s => sdistance2D s v) (toSegments l true) ;; minList ds.
End EdgeSec.
