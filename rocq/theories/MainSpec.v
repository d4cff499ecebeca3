(** Specification of the command line, independent of getopt and main. *)
From Coq Require Import Ascii String ZArith List Bool.
Import ListNotations.
Open Scope string_scope.

Inductive opt := Help | Version | Log (level : string) | Threads (count : string) | Knob.
(* long options may be shortened as long as one letter is left *)
Definition abbreviates (p word : string) : Prop := p <> "" /\ exists rest, word = p ++ rest.
Definition flags : list (string * opt) := [("help", Help); ("version", Version); ("knob", Knob)].
Definition valued : list (string * (string -> opt)) := [("log", Log); ("threads", Threads)].
Fixpoint hs (n : nat) : string := match n with O => "" | S n => String "h" (hs n) end.

(* the arguments, the options among them, and the file names *)
Inductive parses : list string -> list opt -> list string -> Prop :=
| parses_nothing : parses [] [] []
| parses_files a rest : a = "-" \/ (forall s, a <> String "-" s) -> parses (a :: rest) [] (a :: rest)
| parses_dashes rest : parses ("--" :: rest) [] rest
| parses_h n rest opts files :
    parses rest opts files -> parses (("-" ++ hs (S n)) :: rest) (repeat Help (S n) ++ opts)%list files
| parses_flag word o p rest opts files : In (word, o) flags -> abbreviates p word ->
    parses rest opts files -> parses (("--" ++ p) :: rest) (o :: opts) files
| parses_next word f p v rest opts files : In (word, f) valued -> abbreviates p word ->
    parses rest opts files -> parses (("--" ++ p) :: v :: rest) (f v :: opts) files
| parses_equals word f p v rest opts files : In (word, f) valued -> abbreviates p word ->
    parses rest opts files -> parses (("--" ++ p ++ "=" ++ v) :: rest) (f v :: opts) files.

Section Spec.
Variable parseInt : string -> option Z.
Definition level (s : string) : Prop := In s ["DEBUG"; "INFO"; "WARNING"; "ERROR"; "WARN"; "CRITICAL"; "FATAL"; "NOTSET"].
(* options after which the program goes on *)
Definition goes_on (o : opt) : Prop :=
  match o with Help | Version => False | Log l => level l | Threads s => parseInt s <> None | Knob => True end.
(* options that end the program with an error *)
Definition invalid (o : opt) : Prop :=
  match o with Log l => ~ level l | Threads s => parseInt s = None | _ => False end.
(* the log levels that are set, in order *)
Definition levels (opts : list opt) : list string := flat_map (fun o => match o with Log l => [l] | _ => [] end) opts.
(* the last --threads counts; eight otherwise *)
Definition thread_count (opts : list opt) (n : Z) : Prop :=
  ((forall s, ~ In (Threads s) opts) /\ n = 8%Z) \/
  exists before s after, opts = (before ++ Threads s :: after)%list /\ (forall s', ~ In (Threads s') after) /\ parseInt s = Some n.
Definition knob_only (opts : list opt) (b : bool) : Prop := b = true <-> In Knob opts.
End Spec.

Fixpoint free_of (c : ascii) (s : string) : Prop := match s with EmptyString => True | String d r => d <> c /\ free_of c r end.
