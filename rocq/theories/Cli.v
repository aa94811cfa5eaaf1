(** * Model of cli/OnexCLI.cpp: the command interpreter around one OnexAPI object.

    Only which message is printed; the text is in Console.v.  Not modelled: readline's history, and
    that main and wantToQuitByEOF free the line with delete although readline allocates it with malloc. *)
From Coq Require Import ZArith Bool Lia Ascii String List.
From Verif Require Import Outcome Num Lemire Distance TimeSeries Text Dataset Groups Api.
Import ListNotations.
Open Scope Z_scope.

Section Cli.
Context (N : NumOps) (IO : NumIO N).
(** Which paths can be opened for writing. *)
Context (writable : string -> bool).
Local Notation T := (num N).

(** The globals gOnexAPI and gTimerEnabled (OnexCLI.cpp:33-34). *)
Record cli : Type := mkCli { c_api : st N; c_timer : bool }.
(** The start of the program (OnexCLI.cpp:33-34). *)
Definition cli_init (files : string -> option text) : cli := mkCli (st_init N files) true.

(** What is printed: nothing; help or "cannot find help"; "cannot find command" (523); "too few" or "too many arguments" (40, 49,
    516); "unknown object" or "must be on or off" (190, 225); the distances (183-186); the timer state; the answer of the API;
    the message of an OnexException (583); "cannot convert some value to numeric" (587); "unknown error" (591). *)
Inductive reply : Type :=
| RNothing | RHelp | RUnknown | RArgs | RRefused | RDistances | RTimer (on : bool)
| RAnswer (v : value N) | RError (msg : string) | RNotNumeric | RUnexpected.

(** Outcome of processLine or of a command: it returns (its bool result is [quit] for processLine), throws, ... *)
Inductive ran : Type :=
| Ran (s : cli) (quit : bool) (r : reply)
| Raised (s : cli) (e : exn)
| Undef (u : ub)
| Loops.

(** The result of an API call, made while the rest of the state is that of [c]. *)
Definition of_res (c : cli) (r : res N) : ran :=
  match r with
  | Done _ s v => Ran (mkCli s (c_timer c)) false (RAnswer v)
  | Exn _ s e => Raised (mkCli s (c_timer c)) e
  | Bad _ u => Undef u
  | Hang _ => Loops
  end.

(** A command converts its arguments and then makes one API call. *)
Definition api_call (c : cli) (o : outcome (op N)) : ran :=
  match o with
  | Ok o => of_res c (step N IO writable (c_api c) o)
  | Throw e => Raised c e
  | UB u => Undef u
  | NoFuel => Loops
  end.

Definition str (t : text) : string := string_of_list_ascii t.
(** Comparison of two std::string. *)
Fixpoint text_eqb (x y : text) : bool :=
  match x, y with
  | [], [] => true
  | a :: x', b :: y' => Ascii.eqb a b && text_eqb x' y'
  | _, _ => false
  end.

(** tooFewArgs(args, lo) || tooManyArgs(args, hi) (OnexCLI.cpp:37-53) *)
Definition badArgs (args : list text) (lo hi : Z) : bool := (zlen args <? lo) || (hi <? zlen args).
(** args[i] (std::vector, unchecked) *)
Definition arg (args : list text) (i : Z) : outcome text := zget args i.
Definition int_arg (args : list text) (i : Z) : outcome Z := t <- arg args i;; stoi t.

(** LoadDataset (OnexCLI.cpp:75-98) *)
Definition cmdLoad (c : cli) (args : list text) : ran :=
  if badArgs args 2 5 then Ran c false RArgs else
  api_call c (
    filePath <- arg args 1;;
    maxNumRow <- (if 2 <? zlen args then int_arg args 2 else Ok 0);;
    startCol <- (if 3 <? zlen args then int_arg args 3 else Ok 0);;
    separators <- (if 4 <? zlen args then arg args 4 else Ok [sp]);;
    Ok (OpLoad N (str filePath) maxNumRow startCol separators)).

(** SaveDataset (OnexCLI.cpp:115-131); [args[3][0]] of an empty string would be the null character. *)
Definition cmdSave (c : cli) (args : list text) : ran :=
  if badArgs args 3 4 then Ran c false RArgs else
  api_call c (
    index <- int_arg args 1;;
    filePath <- arg args 2;;
    separator <- (if zlen args =? 4 then
                    t <- arg args 3;;
                    let ch := hd zero t in
                    Ok (if Ascii.eqb ch nl then sp else ch)
                  else Ok sp);;
    Ok (OpSave N index (str filePath) separator)).

(** UnloadDataset (OnexCLI.cpp:142-155) *)
Definition cmdUnload (c : cli) (args : list text) : ran :=
  if badArgs args 2 5 then Ran c false RArgs else
  api_call c (index <- int_arg args 1;; Ok (OpUnload N index)).

(** List (OnexCLI.cpp:165-194) *)
Definition cmdList (c : cli) (args : list text) : ran :=
  if badArgs args 2 2 then Ran c false RArgs else
  match arg args 1 with
  | Ok t =>
      if text_eqb t (T_ "dataset") then of_res c (step N IO writable (c_api c) (OpAllInfo N))
      else if text_eqb t (T_ "distance") then Ran c false RDistances
      else Ran c false RRefused
  | Throw e => Raised c e
  | UB u => Undef u
  | NoFuel => Loops
  end.

(** Timer (OnexCLI.cpp:201-230) *)
Definition cmdTimer (c : cli) (args : list text) : ran :=
  if badArgs args 1 2 then Ran c false RArgs else
  if zlen args =? 1 then Ran c false (RTimer (c_timer c)) else
  match arg args 1 with
  | Ok t =>
      if text_eqb t (T_ "on") then Ran (mkCli (c_api c) true) false (RTimer true)
      else if text_eqb t (T_ "off") then Ran (mkCli (c_api c) false) false (RTimer false)
      else Ran c false RRefused
  | Throw e => Raised c e
  | UB u => Undef u
  | NoFuel => Loops
  end.

(** GroupDataset (OnexCLI.cpp:241-259); [clock] says when the progress log is due (LocalLengthGroupSpace.cpp:62-73). *)
Definition cmdGroup (clock : Z -> bool) (c : cli) (args : list text) : ran :=
  if badArgs args 3 3 then Ran c false RArgs else
  api_call c (
    index <- int_arg args 1;;
    t <- arg args 2;;
    threshold <- io_stod IO t;;
    Ok (OpGroup N index threshold clock)).

(** SaveGroup (OnexCLI.cpp:270-284) *)
Definition cmdSaveGroup (c : cli) (args : list text) : ran :=
  if badArgs args 3 4 then Ran c false RArgs else
  api_call c (
    index <- int_arg args 1;;
    groupSizeOnly <- (if zlen args =? 4 then z <- int_arg args 3;; Ok (negb (z =? 0)) else Ok false);;
    path <- arg args 2;;
    Ok (OpSaveGroup N index (str path) groupSizeOnly)).

(** LoadGroup (OnexCLI.cpp:295-308) *)
Definition cmdLoadGroup (c : cli) (args : list text) : ran :=
  if badArgs args 3 3 then Ran c false RArgs else
  api_call c (
    index <- int_arg args 1;;
    path <- arg args 2;;
    Ok (OpLoadGroup N index (str path))).

(** NormalizeDataset (OnexCLI.cpp:320-333) *)
Definition cmdNormalize (c : cli) (args : list text) : ran :=
  if badArgs args 2 2 then Ran c false RArgs else
  api_call c (index <- int_arg args 1;; Ok (OpNormalize N index)).

(** PAA (OnexCLI.cpp:341-359) *)
Definition cmdPAA (c : cli) (args : list text) : ran :=
  if badArgs args 3 3 then Ran c false RArgs else
  api_call c (
    index <- int_arg args 1;;
    blockSize <- int_arg args 2;;
    Ok (OpPAA N index blockSize)).

(** Match (OnexCLI.cpp:370-401) *)
Definition cmdMatch (c : cli) (args : list text) : ran :=
  if badArgs args 4 6 then Ran c false RArgs else
  api_call c (
    db_index <- int_arg args 1;;
    q_index <- int_arg args 2;;
    ts_index <- int_arg args 3;;
    se <- (if 4 <? zlen args then
             s <- int_arg args 4;;
             e <- int_arg args 5;;
             Ok (s, e)
           else Ok (-1, -1));;
    Ok (OpMatch N db_index q_index ts_index (fst se) (snd se))).

(** The map of commands (OnexCLI.cpp:422-434) *)
Definition commands (clock : Z -> bool) : list (text * (cli -> list text -> ran)) :=
  [ (T_ "load", cmdLoad); (T_ "save", cmdSave); (T_ "unload", cmdUnload); (T_ "list", cmdList); (T_ "timer", cmdTimer);
    (T_ "group", cmdGroup clock); (T_ "saveGroup", cmdSaveGroup); (T_ "loadGroup", cmdLoadGroup);
    (T_ "normalize", cmdNormalize); (T_ "paa", cmdPAA); (T_ "match", cmdMatch) ].
Fixpoint lookup {A} (k : text) (l : list (text * A)) : option A :=
  match l with
  | [] => None
  | (k', v) :: l' => if text_eqb k k' then Some v else lookup k l'
  end.

(** [args[0].find("//") == 0] *)
Definition starts_comment (t : text) : bool :=
  match t with a :: b :: _ => Ascii.eqb a "/"%char && Ascii.eqb b "/"%char | _ => false end.

(** processLine (OnexCLI.cpp:488-531), showHelp and showAllHelps (449-486) *)
Definition processLine (clock : Z -> bool) (c : cli) (line : text) : ran :=
  let args := tokens [sp] line in
  match args with
  | [] => Ran c false RNothing
  | a :: _ =>
      if starts_comment a then Ran c false RNothing
      else if text_eqb a (T_ "quit") || text_eqb a (T_ "exit") then Ran c true RNothing
      else if text_eqb a (T_ "help") then
        if zlen args =? 1 then Ran c false RHelp
        else if zlen args =? 2 then Ran c false RHelp
        else Ran c false RArgs
      else match lookup a (commands clock) with
           | None => Ran c false RUnknown
           | Some doCommand => doCommand c args
           end
  end.

(** What happens after a line: the prompt comes back, the program ends, undefined behaviour, an endless loop. *)
Inductive next : Type :=
| Prompt (c : cli) (r : reply)
| Ended (c : cli) (r : reply)
| Crash (u : ub)
| Stuck.

(** The body of the loop of main for a line that was read (OnexCLI.cpp:570-596). *)
Definition main_line (clock : Z -> bool) (c : cli) (line : text) : next :=
  match processLine clock c line with
  | Ran c' true r => Ended c' r
  | Ran c' false r => Prompt c' r
  | Raised c' (OnexExn m) => Prompt c' (RError m)
  | Raised c' (LogicExn _) => Prompt c' RNotNumeric
  | Raised c' (OtherExn _) => Ended c' RUnexpected
  | Undef u => Crash u
  | Loops => Stuck
  end.

(** main (OnexCLI.cpp:550-603) on the lines typed so far ([None]: end of file), each with the clock during its execution.
    [asking]: inside wantToQuitByEOF (533-548).  When the input is used up the program waits for more: [Prompt]. *)
Fixpoint cli_run (asking : bool) (c : cli) (inputs : list ((Z -> bool) * option text)) : next :=
  match inputs with
  | [] => Prompt c RNothing
  | (clock, l) :: rest =>
      if asking then
        match l with
        | None => Ended c RNothing
        | Some t =>
            if text_eqb t (T_ "y") || text_eqb t [] then Ended c RNothing
            else cli_run (negb (text_eqb t (T_ "n"))) c rest
        end
      else
        match l with
        | None => cli_run true c rest
        | Some t =>
            match main_line clock c t with
            | Prompt c' _ => cli_run false c' rest
            | n => n
            end
        end
  end.
End Cli.
