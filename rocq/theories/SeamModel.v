(** Model of /repo/body/prusa/clean-3mf-seam.py. *)
From Coq Require Import Ascii String ZArith NArith List Bool.
From Verif Require Import Num.
Import ListNotations.
Open Scope string_scope.

(* a double quote, to keep the strings below readable *)
Definition quote : string := String (ascii_of_nat 34) "".
Definition isQuote (c : ascii) : bool := Ascii.eqb c (ascii_of_nat 34).
(* clean-3mf-seam.py:30: the literal part of SEARCH, before the digits *)
Definition attrStart : string := " slic3rpe:custom_seam=" ++ quote.
(* the class [0-9A-F] *)
Definition hexDigit (c : ascii) : bool :=
  let n := N_of_ascii c in ((48 <=? n) && (n <=? 57) || (65 <=? n) && (n <=? 70))%N.
(* s without its first n characters *)
Fixpoint sdrop (n : nat) (s : string) : string :=
  match n, s with O, _ => s | _, EmptyString => "" | S n, String _ r => sdrop n r end.
(* the longest run of hex digits (greedy; backing off cannot help because the
   next character of the pattern is no hex digit) and what follows *)
Fixpoint hexRun (s : string) : nat * string :=
  match s with
  | EmptyString => (0, "")
  | String c r => if hexDigit c then let '(n, rest) := hexRun r in (S n, rest) else (0, s)
  end.
(* does SEARCH match at the start of s?  What follows the match *)
Definition matchAt (s : string) : option string :=
  if String.prefix attrStart s then
    let '(n, rest) := hexRun (sdrop (String.length attrStart) s) in
    if (2 <=? n)%nat then
      match rest with String c r => if isQuote c then Some r else None | EmptyString => None end
    else None
  else None.
(* re.sub(SEARCH, rep, s): from left to right, going on after each match *)
Fixpoint subLoop (fuel : nat) (rep s : string) : string :=
  match fuel with
  | O => s
  | S f => match matchAt s with
           | Some r => rep ++ subLoop f rep r
           | None => match s with EmptyString => "" | String c r => String c (subLoop f rep r) end
           end
  end.
Definition sub (rep s : string) : string := subLoop (S (String.length s)) rep s.

(** ** the archive *)
(* an archive: its members in order *)
Definition archive := list (string * string).
(* z.read(name): the last member of that name *)
Definition zread (z : archive) (name : string) : string :=
  match find (fun m => String.eqb name (fst m)) (rev z) with Some m => snd m | None => "" end.
(* clean-3mf-seam.py:19-21 readZip: a dict in the order of first occurrence *)
Fixpoint names (seen : list string) (z : archive) : list string :=
  match z with
  | [] => []
  | (n, _) :: r => if existsb (String.eqb n) seen then names seen r else n :: names (n :: seen) r
  end.
Definition readZip (z : archive) : archive := map (fun n => (n, zread z n)) (names [] z).
(* clean-3mf-seam.py:29-34 *)
Definition MODEL : string := "3D/3dmodel.model".
Definition REPLACE (command : string) : option string :=
  if String.eqb command "e" then Some (attrStart ++ "4" ++ quote)
  else if String.eqb command "b" then Some (attrStart ++ "8" ++ quote)
  else if String.eqb command "c" then Some ""
  else None.
(* files[MODEL] = data *)
Definition setFile (files : archive) (name data : string) : archive :=
  map (fun m => if String.eqb (fst m) name then (name, data) else m) files.

(* what is at the path: a readable archive, one that is being written (its
   directory comes last, so it cannot be opened), or something else *)
Inductive disk := Archive (z : archive) | Unfinished (z : archive) | Unreadable.
(* clean-3mf-seam.py:36-41: the states the file goes through after the first, and the
   exception if any.  Evaluation order: argv, readZip, REPLACE[command], files[MODEL].
   writeZip truncates the file before the first member is written *)
Definition clean (argv : list string) (d : disk) : list disk * option exn :=
  match argv with
  | _ :: _ :: command :: _ =>
      match d with
      | Archive z =>
          let files := readZip z in
          match REPLACE command with
          | None => ([], Some KeyErr)
          | Some rep =>
              match find (fun m => String.eqb MODEL (fst m)) files with
              | None => ([], Some KeyErr)
              | Some m =>
                  let files' := setFile files MODEL (sub rep (snd m)) in
                  ((map (fun k => Unfinished (firstn k files')) (seq 0 (S (length files'))) ++ [Archive files'])%list, None)
              end
          end
      | _ => ([], Some ValueErr)
      end
  | _ => ([], Some IndexErr)
  end.
