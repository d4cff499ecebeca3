(** Model of /repo/body/chrumm/__main__.py and of the getopt module it calls. *)
From Coq Require Import Ascii String ZArith List Bool.
From Verif Require Import Num.
Import ListNotations.
Open Scope string_scope.

(** ** CPython's getopt.getopt, called at __main__.py:37-38.  GetoptError is ValueErr here *)
(* opt.index('=') and the two slices around it *)
Fixpoint splitEq (s : string) : option (string * string) :=
  match s with
  | EmptyString => None
  | String c r => if Ascii.eqb c "=" then Some ("", r)
                  else match splitEq r with Some (a, b) => Some (String c a, b) | None => None end
  end.
(* s[:-1] *)
Fixpoint butlast (s : string) : string :=
  match s with EmptyString => "" | String c EmptyString => "" | String c r => String c (butlast r) end.
(* s.endswith('=') *)
Fixpoint endsEq (s : string) : bool :=
  match s with EmptyString => false | String c EmptyString => Ascii.eqb c "=" | String _ r => endsEq r end.
Definition inStrings (s : string) (l : list string) : bool := existsb (String.eqb s) l.
(* getopt.long_has_args *)
Definition longHasArgs (opt : string) (longopts : list string) : res (bool * string) :=
  let possibilities := filter (fun o => String.prefix opt o) longopts in
  match possibilities with
  | [] => Err ValueErr
  | u :: more =>
      if inStrings opt possibilities then Ok (false, opt)
      else if inStrings (opt ++ "=") possibilities then Ok (true, opt)
      else match more with
           | _ :: _ => Err ValueErr
           | [] => if endsEq u then Ok (true, butlast u) else Ok (false, u)
           end
  end.
(* getopt.do_longs: the new option and the remaining arguments *)
Definition doLongs (opt : string) (longopts : list string) (args : list string) : res ((string * string) * list string) :=
  let '(name, optarg) := match splitEq opt with Some (a, b) => (a, Some b) | None => (opt, None) end in
  h <- longHasArgs name longopts ;;
  let '(hasArg, name) := h in
  if hasArg : bool then
    match optarg, args with
    | Some v, _ => Ok (("--" ++ name, v), args)
    | None, v :: args => Ok (("--" ++ name, v), args)
    | None, [] => Err ValueErr
    end
  else
    match optarg with
    | Some _ => Err ValueErr
    | None => Ok (("--" ++ name, ""), args)
    end.
(* getopt.short_has_arg *)
Fixpoint shortHasArg (opt : ascii) (shortopts : string) : res bool :=
  match shortopts with
  | EmptyString => Err ValueErr
  | String c r => if Ascii.eqb opt c && negb (Ascii.eqb c ":") then Ok (String.prefix ":" r) else shortHasArg opt r
  end.
(* getopt.do_shorts *)
Fixpoint doShorts (optstring shortopts : string) (args : list string) : res (list (string * string) * list string) :=
  match optstring with
  | EmptyString => Ok ([], args)
  | String o r =>
      h <- shortHasArg o shortopts ;;
      if h : bool then
        match r, args with
        | EmptyString, [] => Err ValueErr
        | EmptyString, v :: args => Ok ([(String "-" (String o ""), v)], args)
        | _, _ => Ok ([(String "-" (String o ""), r)], args)
        end
      else
        x <- doShorts r shortopts args ;;
        Ok ((String "-" (String o ""), "") :: fst x, snd x)
  end.
(* getopt.getopt; each round removes an argument, so the length is enough fuel *)
Fixpoint getoptLoop (fuel : nat) (shortopts : string) (longopts : list string) (opts : list (string * string)) (args : list string)
    : res (list (string * string) * list string) :=
  match fuel with
  | O => Err OutOfFuel
  | S fuel =>
      match args with
      | [] => Ok (opts, [])
      | a :: rest =>
          if String.prefix "-" a && negb (String.eqb a "-") then
            if String.eqb a "--" then Ok (opts, rest)
            else if String.prefix "--" a then
              x <- doLongs (substring 2 (String.length a - 2) a) longopts rest ;;
              getoptLoop fuel shortopts longopts (opts ++ [fst x])%list (snd x)
            else
              x <- doShorts (substring 1 (String.length a - 1) a) shortopts rest ;;
              getoptLoop fuel shortopts longopts (opts ++ fst x)%list (snd x)
          else Ok (opts, args)
      end
  end.
Definition getopt (args : list string) (shortopts : string) (longopts : list string) : res (list (string * string) * list string) :=
  getoptLoop (S (List.length args)) shortopts longopts [] args.

(** ** pathlib *)
(* the parts of a path between slashes *)
Fixpoint splitSlash (s : string) : list string :=
  match s with
  | EmptyString => [""]
  | String c r =>
      match splitSlash r with
      | p :: ps => if Ascii.eqb c "/" then "" :: p :: ps else String c p :: ps
      | [] => []
      end
  end.
(* pathlib.Path(f).name on POSIX: the last part that is neither empty nor a dot *)
Definition pathName (f : string) : string :=
  last (filter (fun p => negb (String.eqb p "" || String.eqb p ".")) (splitSlash f)) "".
(* str.rfind for a dot *)
Fixpoint rfindDot (s : string) : option nat :=
  match s with
  | EmptyString => None
  | String c r => match rfindDot r with
                  | Some i => Some (S i)
                  | None => if Ascii.eqb c "." then Some 0 else None
                  end
  end.
(* PurePath.stem (before Python 3.14): i = name.rfind('.'); name[:i] if 0 < i < len(name) - 1 *)
Definition stem (f : string) : string :=
  let name := pathName f in
  match rfindDot name with
  | Some i => if (0 <? i)%nat && (i <? String.length name - 1)%nat then substring 0 i name else name
  | None => name
  end.

(** ** main *)
Section Main.
Variable data : Type.                                      (* bytes or str *)
Variable parseInt : string -> option Z.                    (* int(); None: ValueError *)
Variable read : string -> res string.                      (* Path.read_text *)
Variable make : list string -> Z -> bool -> res (list (string * data)). (* chrumm.make *)
Variable write : string -> data -> res unit.               (* Path.write_text, Path.write_bytes *)

(* what the outside sees; log messages are not modelled *)
Inductive event :=
| PrintHelp | PrintVersion | SetLevel (level : string)
| Read (path : string) | Made (strings : list string) (threads : Z) (knob : bool)
| Wrote (path : string) (d : data) | WriteFailed (path : string).
(* logging.Logger.setLevel: the names in logging._nameToLevel, else ValueError *)
Definition levelNames : list string := ["CRITICAL"; "FATAL"; "ERROR"; "WARN"; "WARNING"; "INFO"; "DEBUG"; "NOTSET"].
(* __main__.py:40-51: the for loop.  Left: exit status of sys.exit or of an exception *)
Fixpoint optionLoop (opts : list (string * string)) (threads : Z) (knob : bool) : list event * (Z + (Z * bool)) :=
  match opts with
  | [] => ([], inr (threads, knob))
  | (name, arg) :: r =>
      if String.eqb name "-h" || String.eqb name "--help" then ([PrintHelp], inl 0%Z)
      else if String.eqb name "--version" then ([PrintVersion], inl 0%Z)
      else if String.eqb name "--log" then
        if inStrings arg levelNames then let '(es, o) := optionLoop r threads knob in (SetLevel arg :: es, o)
        else ([], inl 1%Z)
      else if String.eqb name "--threads" then
        match parseInt arg with Some n => optionLoop r n knob | None => ([], inl 1%Z) end
      else if String.eqb name "--knob" then optionLoop r threads true
      else optionLoop r threads knob
  end.
(* __main__.py:57: read the files one after the other *)
Fixpoint readAll (paths : list string) : list event * res (list string) :=
  match paths with
  | [] => ([], Ok [])
  | p :: r => match read p with
              | Err e => ([], Err e)
              | Ok s => let '(es, o) := readAll r in (Read p :: es, rmap (cons s) o)
              end
  end.
(* __main__.py:70-76 *)
Fixpoint writeAll (jsonStem : string) (files : list (string * data)) : list event * Z :=
  match files with
  | [] => ([], 0%Z)
  | (name, d) :: r =>
      let path := jsonStem ++ "-" ++ name in
      match write path d with
      | Err _ => ([WriteFailed path], 1%Z)
      | Ok _ => let '(es, c) := writeAll jsonStem r in (Wrote path d :: es, c)
      end
  end.
(* __main__.py:33-98: events and exit status.  Every exception ends in sys.exit(1) *)
Definition main (argv : list string) : list event * Z :=
  match getopt argv "h" ["help"; "version"; "log="; "threads="; "knob"] with
  | Err _ => ([], 1%Z)
  | Ok (opts, jsonFiles) =>
      let '(es1, o) := optionLoop opts 8%Z false in
      match o with
      | inl code => (es1, code)
      | inr (threads, knob) =>
          match jsonFiles with
          | [] => (es1, 1%Z)
          | _ =>
              let '(es2, rs) := readAll jsonFiles in
              match rs with
              | Err _ => ((es1 ++ es2)%list, 1%Z)
              | Ok strings =>
                  match make strings threads knob with
                  | Err _ => ((es1 ++ es2)%list, 1%Z)
                  | Ok files =>
                      let '(es3, code) := writeAll (stem (last jsonFiles "")) files in
                      ((es1 ++ es2 ++ [Made strings threads knob] ++ es3)%list, code)
                  end
              end
          end
      end
  end.
End Main.
Arguments PrintHelp {data}. Arguments PrintVersion {data}. Arguments SetLevel {data}. Arguments Read {data}.
Arguments Made {data}. Arguments Wrote {data}. Arguments WriteFailed {data}.
