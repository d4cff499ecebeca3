(** What a keyboard layout should be, independent of LayoutModel's loops. *)
From Coq Require Import Reals ZArith List Bool.
From Verif Require Import Num GeoModel GeoSpec KeyModel LayoutModel.
Import ListNotations.
Open Scope R_scope.

(* settings that describe a layout: every row has four groups (left pinky, left
   alphanumeric, right alphanumeric, right pinky), all rows have the same group
   sizes, and every thumb key has a size and an angle *)
Definition well_formed {N : Num} (c : @layout_cfg N) : Prop :=
  (forall row, In row (fingerStaggers c) -> length row = 4%nat /\
     forall i, (i < 4)%nat -> length (nth i row []) = length (nth i (hd [] (fingerStaggers c)) [])) /\
  length (thumbUnits c) = 2%nat /\ length (thumbAngles c) = 2%nat /\
  (forall i, (i < 2)%nat -> length (nth i (thumbUnits c) []) = length (nth i (thumbAngles c) [])).

(* the two groups of one half of a row, from the middle of the keyboard outward *)
Definition half_row {A} (left : bool) (row : list (list A)) : list (list A) :=
  if left then [rev (nth 1 row []); rev (nth 0 row [])] else [nth 2 row []; nth 3 row []].
(* the displacement of a key, or no key *)
Definition displacement (s : @stagger Rnum) : option (R * R) :=
  match s with
  | SNum y => Some (0, y)
  | SList [] => None
  | SList [y] => Some (0, y)
  | SList (x :: y :: _) => Some (x, y)
  end.
(* where the key of column col belongs; the left half is built mirrored *)
Definition place (left : bool) (pitchX pitchY : R) (row col : nat) (s : @stagger Rnum) : list pt :=
  match displacement s with
  | None => []
  | Some (dx, dy) => [P (INR col * pitchX + (if left then - dx else dx)) (- INR row * pitchY + dy) 0]
  end.
(* the places of group 0 (alphanumeric) or 1 (pinky), row by row *)
Definition places (left : bool) (pitchX pitchY : R) (rows : list (list (list stagger))) (g : nat) : list pt :=
  flat_map (fun ir : nat * list (list stagger) =>
    let hr := half_row left (snd ir) in
    let first := match g with O => O | _ => length (nth 0 hr []) end in
    let grp := nth g hr [] in
    flat_map (fun js : nat * stagger => place left pitchX pitchY (fst ir) (first + fst js) (snd js)) (combine (seq 0 (length grp)) grp))
  (combine (seq 0 (length rows)) rows).

(* settings whose left half mirrors the right half *)
Definition mirror_stagger (s : @stagger Rnum) : @stagger Rnum :=
  match s with SList (x :: y :: r) => SList (- x :: y :: r) | _ => s end.
Definition symmetric (c : @layout_cfg Rnum) : Prop :=
  (forall row, In row (fingerStaggers c) ->
     nth 0 row [] = rev (map mirror_stagger (nth 3 row [])) /\ nth 1 row [] = rev (map mirror_stagger (nth 2 row []))) /\
  nth 0 (thumbUnits c) [] = rev (nth 1 (thumbUnits c) []) /\
  nth 0 (thumbAngles c) [] = rev (nth 1 (thumbAngles c) []) /\
  nth_error (thumbOffsets c) 0 = nth_error (thumbOffsets c) 1.

(* thumb keys, listed from the outside to the middle, with their settings: the first
   one starts at pos, each next one at the left pivot of the one before *)
Fixpoint thumb_chain (pitch : R) (pos : pt) (settings : list (R * R)) (keys : list (@key Rnum)) : Prop :=
  match settings, keys with
  | [], [] => True
  | (units, angle) :: sr, k :: kr =>
      capPivotR k = pos /\
      capPivotL k = P (X pos - pitch * units * cos (angle * PI / 180)) (Y pos - pitch * units * sin (angle * PI / 180)) (Z pos) /\
      (exists v, forall p, transformed p (kmatrix k) =
         plus (P (X p * cos (angle * PI / 180) - Y p * sin (angle * PI / 180)) (X p * sin (angle * PI / 180) + Y p * cos (angle * PI / 180)) (Z p)) v) /\
      thumb_chain pitch (capPivotL k) sr kr
  | _, _ => False
  end.
