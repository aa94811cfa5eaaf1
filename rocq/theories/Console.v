(** * Model of what the program cli/OnexCLI.cpp writes to the console.

    Cli.v models what the commands do; here each command also has the text that it writes to cout, and cout's precision, which
    TIME_COMMAND changes.  The number of seconds that TIME_COMMAND prints is an input ([e_elapsed]).  Not modelled: what readline writes (the
    prompt, the question "Do you really want to exit", the echo of the line). *)
From Coq Require Import ZArith Bool Ascii String List.
From Verif Require Import Outcome Num Lemire Distance TimeSeries Text Dataset Groups Api Cli.
Import ListNotations.
Open Scope Z_scope.

(** << endl *)
Definition endl : text := [nl].
(** << setw(w) << t, aligned left (OnexCLI.cpp:556) *)
Definition pad (w : Z) (t : text) : text := t ++ repeat sp (Z.to_nat (w - zlen t)).
Definition rows (l : list string) : text := flat_map (fun s => T_ s ++ [nl]) l.

(** ** The summaries and help texts of the commands *)
(** OnexCLI.cpp:100-113 *)
Definition help_load : text * text := (T_ "Load a dataset to the memory",
    rows ["Dataset are text files with table-like format, such as comma-separated  ";
    "values files.                                                           ";
    "                                                                        ";
    "Usage: load <filePath> [<maxNumRow> <startCol> <separators>]            ";
    "  filePath  - Path to a text file containing the dataset                ";
    "  maxNumRow - Maximum number of rows will be read from the file. If this";
    "              number is non-positive or the number of actual line is    ";
    "              smaller than this number, all lines are read. (default: 0)";
    "  startCol  - Omit all columns before this column. (default: 0)         ";
    "  separators - A list of characters used to separate values in the file ";
    "              (default: <space>)                                        "]%string).
(** OnexCLI.cpp:133-140 *)
Definition help_save : text * text := (T_ "Save a dataset from memory to disk",
    rows ["Usage: save <dataset_index> <filePath> [<separator>]            ";
    "  dataset_index - Index of the dataset to be saved              ";
    "  filePath  - Path to the saved file                            ";
    "  separator - Separator between values in a series              ";
    "              (default: <space>)                                "]%string).
(** OnexCLI.cpp:157-163 *)
Definition help_unload : text * text := (T_ "Unload a dataset from the memory",
    rows ["Usage: unload <dataset_index>                               ";
    "  dataset_index  - Index of the dataset being unloaded. Use ";
    "                   'list dataset' to retrieve the list of   ";
    "                   loaded datasets.                         "]%string).
(** OnexCLI.cpp:196-199 *)
Definition help_list : text * text := (T_ "List loaded dataset or available distance",
    T_ "Usage: list dataset|distance").
(** OnexCLI.cpp:232-239 *)
Definition help_timer : text * text := (T_ "Turn timer on or off",
    rows ["When timer is turned on, each command is timed and reported at  ";
    "the end of its execution. If this command is called without     ";
    "an additional argument, the current state of timer is printed.  ";
    "                                                                ";
    "Usage: timer [on|off]                                           "]%string).
(** OnexCLI.cpp:261-268 *)
Definition help_group : text * text := (T_ "Group a dataset in memory",
    rows ["Usage: group <dataset_index> <threshold>                       ";
    "  dataset_index   - Index of the dataset being grouped. Use    ";
    "                    'list dataset' to retrieve the list of     ";
    "                    loaded datasets.                           ";
    "  threshold       - Threshold for grouping.                    "]%string).
(** OnexCLI.cpp:286-293 *)
Definition help_saveGroup : text * text := (T_ "Save groups of a grouped dataset",
    rows ["Usage: saveGroup <dataset_index> <path> [<groupSizeOnly>]            ";
    "  dataset_index   - Index of the dataset whose groups will be saved. ";
    "  path            - Where to save the groups.                        ";
    "  groupSizeOnly   - If set to 1, only the sizes of groups are saved  ";
    "                    Default is 0.                                    "]%string).
(** OnexCLI.cpp:310-318 *)
Definition help_loadGroup : text * text := (T_ "Load saved groups to a compatible dataset",
    rows ["A dataset is compatible with a saved group file is when the item      ";
    "count and item length is the same.                                    ";
    "                                                                      ";
    "Usage: loadGroup <dataset_index> <path>                               ";
    "  dataset_index   - Index of the dataset whose groups will be loaded. ";
    "  path            - Where to save the groups.                         "]%string).
(** OnexCLI.cpp:335-339 *)
Definition help_normalize : text * text := (T_ "Normalize a dataset. (Warning: this operation cannot be undone)",
    rows ["Usage: normalize <dataset_index>                           ";
    "  dataset_index   - Index of the dataset to be normalized  "]%string).
(** OnexCLI.cpp:361-367 *)
Definition help_paa : text * text := (T_ "Perform piecewise aggregate approximation (PAA) on a dataset. (Warning: this operation cannot be undone)",
    rows ["Usage: paa <dataset_index> <block_size>                ";
    "  dataset_index   - Index of the dataset to be PAA-ed  "]%string ++ T_ "  block_size      - Size of a block to aggregate         ").
(** OnexCLI.cpp:403-413 *)
Definition help_match : text * text := (T_ "Find the best match of a time series",
    rows ["Usage: match <target_dataset_idx> <q_dataset_idx> <ts_index> [<start> <end>]                    ";
    "  dataset_index   - Index of loaded dataset to get the result from.                             ";
    "                    Use 'list dataset' to retrieve the list of                                  ";
    "                    loaded datasets.                                                            ";
    "  q_dataset_idx   - Same as dataset_index, except for the query                                 ";
    "  ts_index        - Index of the query                                                          ";
    "  start           - The start location of the query in the timeseries                           ";
    "  end             - The end location of the query in the timeseries (this point is not included)"]%string).
(** OnexCLI.cpp:441-447 *)
Definition help_help : text * text := (T_ "Retrieve a list of commands or get help for a command",
    rows ["Usage: help [<command_name>]                                ";
    "  command_name - Name of command to retrieve help about. If ";
    "                 not specified, a list of available commands"]%string ++ T_ "                 is shown instead.                            ").
Definition help_exit : text * text := (T_ "Terminate the program", T_ "Usage: Can use either 'exit' or 'quit'").
(** OnexCLI.cpp:422-434, in the order of std::map. *)
Definition helps : list (text * (text * text)) :=
  [ (T_ "group", help_group); (T_ "list", help_list); (T_ "load", help_load); (T_ "loadGroup", help_loadGroup); (T_ "match", help_match);
    (T_ "normalize", help_normalize); (T_ "paa", help_paa); (T_ "save", help_save); (T_ "saveGroup", help_saveGroup);
    (T_ "timer", help_timer); (T_ "unload", help_unload) ].
Definition help_both (h : text * text) : text := fst h ++ endl ++ snd h ++ endl.
(** OnexCLI.cpp:449-468 *)
Definition showHelp (name : text) : text :=
  if text_eqb name (T_ "help") then help_both help_help
  else if text_eqb name (T_ "exit") || text_eqb name (T_ "quit") then help_both help_exit
  else match lookup name helps with
       | Some h => help_both h
       | None => T_ "Error! Cannot find help for command: " ++ name ++ endl
       end.
(** OnexCLI.cpp:470-486 *)
Definition showAllHelps : text :=
  T_ "Use 'help <command>' to see help for a command" ++ endl ++ endl ++
  pad 15 (T_ "help") ++ fst help_help ++ endl ++
  pad 15 (T_ "exit|quit ") ++ fst help_exit ++ endl ++
  endl ++
  flat_map (fun c => pad 15 (fst c) ++ fst (snd c) ++ endl) helps.

Section Console.
Context (N : NumOps) (IO : NumIO N).
Context (writable : string -> bool).
Local Notation T := (num N).
Local Notation cli := (cli N).
Local Notation ran := (ran N).
Local Notation st := (st N).

(** cout.precision(), 6 at the start. *)
Record con : Type := mkCon { k_cli : cli; k_prec : Z }.
(** What the outside world gives to one line: when the progress log is due (as in Cli.v), the elapsed time as printed (OnexCLI.cpp:28). *)
Record env : Type := mkEnv { e_clock : Z -> bool; e_elapsed : text }.
(** A command: what it wrote, the precision it leaves, what it did. *)
Definition said : Type := text * Z * ran.
Definition just (k : con) (t : text) (r : ran) : said := (t, k_prec k, r).

(** ** What the library writes *)
(** LocalLengthGroupSpace.cpp:56-73: the progress of one length.  (The loop counts 1, 2, ..., total; the product counter * 100 is not
    checked for overflow.) *)
Definition progress_line (total counter : Z) : text :=
  if Z.rem counter (Z.quot total 5) =? 0 then
    T_ "  Grouping progress... " ++ print_Z counter ++ T_ "/" ++ print_Z total ++ T_ " (" ++ print_Z (Z.quot (counter * 100) total) ++ T_ "%)" ++ endl
  else [].
Definition progress_length (count len l : Z) : text :=
  let total := (len - l + 1) * count in
  T_ "Processing time series space of length " ++ print_Z l ++ endl ++
  flat_map (fun c => progress_line total (Z.of_nat c)) (seq 1 (Z.to_nat total)).
(** GlobalGroupSpace.cpp:51-56; [api_group] says at which lengths there is a log. *)
Definition progress (clock : Z -> bool) (logged : bool) (d : dset N) : text :=
  flat_map (fun l => let l := Z.of_nat l in
      if clock l || (negb logged && (l =? 2)) then progress_length (set_count (ds_set N d)) (set_len (ds_set N d)) l else [])
    (seq 2 (Z.to_nat (set_len (ds_set N d) - 1))).
(** What a call writes before it returns or throws: the progress of groupDataset; GroupableTimeSeriesSet.cpp:91. *)
Definition library (s : st) (o : op N) : text :=
  match o with
  | OpGroup _ i _ clock => match checkDatasetIndex N s i with
      | Ok d => if isLoaded (ds_set N d) then progress clock (st_logged N s) d else []
      | _ => []
      end
  | OpLoadGroup _ i p => match checkDatasetIndex N s i, st_files N s p with
      | Ok d, Some t => match load_header N IO (ds_set N d) (mkIS t false) with
          | Ok _ => T_ "Saved groups are compatible with the dataset" ++ endl
          | _ => []
          end
      | _, _ => []
      end
  | _ => []
  end.

(** ** One API call made by a command *)
(** [show p v]: what the command writes about the returned value, with precision [p]. *)
Definition call (k : con) (o : outcome (op N)) (show : Z -> op N -> value N -> text) : said :=
  match o with
  | Ok o => match step N IO writable (c_api N (k_cli k)) o with
      | Done _ s v => (library (c_api N (k_cli k)) o ++ show (k_prec k) o v, k_prec k, Ran N (mkCli N s (c_timer N (k_cli k))) false (RAnswer N v))
      | Exn _ s e => (library (c_api N (k_cli k)) o, k_prec k, Raised N (mkCli N s (c_timer N (k_cli k))) e)
      | Bad _ u => ([], k_prec k, Undef N u)
      | Hang _ => ([], k_prec k, Loops N)
      end
  | Throw e => just k [] (Raised N (k_cli k) e)
  | UB u => just k [] (Undef N u)
  | NoFuel => just k [] (Loops N)
  end.
(** TIME_COMMAND (OnexCLI.cpp:20-29): setprecision(4) stays in force. *)
Definition timed_call (e : env) (k : con) (o : outcome (op N)) (show : Z -> op N -> value N -> text) : said :=
  if c_timer N (k_cli k) then
    match call k o (fun _ o v => T_ "Command executed in " ++ e_elapsed e ++ T_ "s" ++ endl ++ show 4 o v) with
    | (t, p, Ran _ c q r) => (t, 4, Ran N c q r)
    | other => other
    end
  else call k o show.

(** OnexCLI.cpp:37-53, then the command. *)
Definition counted_args (k : con) (args : list text) (lo hi : Z) (body : said) : said :=
  if zlen args <? lo then just k (T_ "Error! Too few arguments" ++ endl) (Ran N (k_cli k) false (RArgs N))
  else if hi <? zlen args then just k (T_ "Error! Too many arguments" ++ endl) (Ran N (k_cli k) false (RArgs N))
  else body.

Definition show_info (title : string) (i : info) : text :=
  T_ title ++ endl ++
  T_ "  Name:        " ++ T_ (i_name i) ++ endl ++
  T_ "  ID:          " ++ print_Z (i_id i) ++ endl ++
  T_ "  Item count:  " ++ print_Z (i_count i) ++ endl ++
  T_ "  Item length: " ++ print_Z (i_length i) ++ endl.
(** OnexCLI.cpp:75-98 *)
Definition k_load (k : con) (args : list text) : said :=
  counted_args k args 2 5 (call k (
    filePath <- arg args 1;;
    maxNumRow <- (if 2 <? zlen args then int_arg args 2 else Ok 0);;
    startCol <- (if 3 <? zlen args then int_arg args 3 else Ok 0);;
    separators <- (if 4 <? zlen args then arg args 4 else Ok [sp]);;
    Ok (OpLoad N (str filePath) maxNumRow startCol separators))
  (fun _ _ v => match v with VInfo _ i => show_info "Dataset loaded                         " i | _ => [] end)).
(** OnexCLI.cpp:115-131 *)
Definition k_save (k : con) (args : list text) : said :=
  counted_args k args 3 4 (call k (
    index <- int_arg args 1;;
    filePath <- arg args 2;;
    separator <- (if zlen args =? 4 then
                    t <- arg args 3;;
                    let ch := hd zero t in
                    Ok (if Ascii.eqb ch nl then sp else ch)
                  else Ok sp);;
    Ok (OpSave N index (str filePath) separator))
  (fun _ o _ => match o with OpSave _ i p _ => T_ "Saved dataset " ++ print_Z i ++ T_ " to " ++ T_ p ++ endl | _ => [] end)).
(** OnexCLI.cpp:142-155 *)
Definition k_unload (k : con) (args : list text) : said :=
  counted_args k args 2 5 (call k (index <- int_arg args 1;; Ok (OpUnload N index))
  (fun _ o _ => match o with OpUnload _ i => T_ "Dataset " ++ print_Z i ++ T_ " is unloaded" ++ endl | _ => [] end)).
(** OnexCLI.cpp:176-182 *)
Definition list_line (i : info) : text :=
  T_ "  " ++ pad 4 (print_Z (i_id i)) ++ T_ " " ++ T_ (i_name i) ++
  ["009"%char] ++ pad 10 (T_ (if i_normalized i then "Normalized" else "")) ++
  ["009"%char] ++ pad 10 (T_ (if i_grouped i then "Grouped" else "")) ++ endl.
Definition show_list (l : list info) : text :=
  T_ "There are " ++ print_Z (zlen l) ++ T_ " loaded datasets" ++ endl ++ endl ++ flat_map list_line l.
(** OnexCLI.cpp:165-194 *)
Definition k_list (k : con) (args : list text) : said :=
  counted_args k args 2 2
  match arg args 1 with
  | Ok t =>
      if text_eqb t (T_ "dataset") then call k (Ok (OpAllInfo N)) (fun _ _ v => match v with VInfos _ l => show_list l | _ => [] end)
      else if text_eqb t (T_ "distance") then
        just k (T_ " " ++ pad 10 (T_ "euclidean") ++ endl ++ T_ " " ++ pad 10 (T_ "euclidean_dtw") ++ endl) (Ran N (k_cli k) false (RDistances N))
      else just k (T_ "Error! Unknown object: " ++ t ++ endl) (Ran N (k_cli k) false (RRefused N))
  | Throw e => just k [] (Raised N (k_cli k) e)
  | UB u => just k [] (Undef N u)
  | NoFuel => just k [] (Loops N)
  end.
(** OnexCLI.cpp:201-230 *)
Definition show_timer (on : bool) : text := T_ "Timer is " ++ T_ (if on then "ON" else "OFF") ++ endl.
Definition k_timer (k : con) (args : list text) : said :=
  counted_args k args 1 2 (
  if zlen args =? 1 then just k (show_timer (c_timer N (k_cli k))) (Ran N (k_cli k) false (RTimer N (c_timer N (k_cli k)))) else
  match arg args 1 with
  | Ok t =>
      if text_eqb t (T_ "on") then just k (show_timer true) (Ran N (mkCli N (c_api N (k_cli k)) true) false (RTimer N true))
      else if text_eqb t (T_ "off") then just k (show_timer false) (Ran N (mkCli N (c_api N (k_cli k)) false) false (RTimer N false))
      else just k (T_ "Error! Argument for timer must be 'on' or 'off'" ++ endl) (Ran N (k_cli k) false (RRefused N))
  | Throw e => just k [] (Raised N (k_cli k) e)
  | UB u => just k [] (Undef N u)
  | NoFuel => just k [] (Loops N)
  end).
(** OnexCLI.cpp:241-259 *)
Definition k_group (e : env) (k : con) (args : list text) : said :=
  counted_args k args 3 3 (timed_call e k (
    index <- int_arg args 1;;
    t <- arg args 2;;
    threshold <- io_stod IO t;;
    Ok (OpGroup N index threshold (e_clock e)))
  (fun _ o v => match o, v with
    | OpGroup _ i _ _, VInt _ n => T_ "Dataset " ++ print_Z i ++ T_ " is now grouped" ++ endl ++ T_ "Number of Groups: " ++ print_Z n ++ endl
    | _, _ => []
    end)).
(** OnexCLI.cpp:270-284 *)
Definition k_saveGroup (k : con) (args : list text) : said :=
  counted_args k args 3 4 (call k (
    index <- int_arg args 1;;
    groupSizeOnly <- (if zlen args =? 4 then z <- int_arg args 3;; Ok (negb (z =? 0)) else Ok false);;
    path <- arg args 2;;
    Ok (OpSaveGroup N index (str path) groupSizeOnly))
  (fun _ o _ => match o with OpSaveGroup _ i p _ => T_ "Saved groups of dataset " ++ print_Z i ++ T_ " to " ++ T_ p ++ endl | _ => [] end)).
(** OnexCLI.cpp:295-308 (no endl) *)
Definition k_loadGroup (k : con) (args : list text) : said :=
  counted_args k args 3 3 (call k (
    index <- int_arg args 1;;
    path <- arg args 2;;
    Ok (OpLoadGroup N index (str path)))
  (fun _ o v => match o, v with OpLoadGroup _ i _, VInt _ n => print_Z n ++ T_ " groups loaded for dataset " ++ print_Z i | _, _ => [] end)).
(** OnexCLI.cpp:320-333 *)
Definition k_normalize (k : con) (args : list text) : said :=
  counted_args k args 2 2 (call k (index <- int_arg args 1;; Ok (OpNormalize N index))
  (fun _ o _ => match o with OpNormalize _ i => T_ "Dataset " ++ print_Z i ++ T_ " is now normalized" ++ endl | _ => [] end)).
(** OnexCLI.cpp:341-359 *)
Definition k_paa (k : con) (args : list text) : said :=
  counted_args k args 3 3 (call k (
    index <- int_arg args 1;;
    blockSize <- int_arg args 2;;
    Ok (OpPAA N index blockSize))
  (fun _ _ v => match v with VInfo _ i => show_info "Dataset PAA-ed                     " i | _ => [] end)).
(** OnexCLI.cpp:393-397 *)
Definition show_match (p : Z) (c : candidate N) : text :=
  T_ "Best Match is timeseries " ++ print_Z (ts_index (cand_data c)) ++
  T_ " starting at " ++ print_Z (ts_start (cand_data c)) ++
  T_ " with length " ++ print_Z (ts_len (cand_data c)) ++
  T_ ". Distance = " ++ io_print IO p (cand_dist c) ++ endl.
(** OnexCLI.cpp:370-401 *)
Definition k_match (e : env) (k : con) (args : list text) : said :=
  counted_args k args 4 6 (timed_call e k (
    db_index <- int_arg args 1;;
    q_index <- int_arg args 2;;
    ts_index <- int_arg args 3;;
    se <- (if 4 <? zlen args then
             s <- int_arg args 4;;
             e <- int_arg args 5;;
             Ok (s, e)
           else Ok (-1, -1));;
    Ok (OpMatch N db_index q_index ts_index (fst se) (snd se)))
  (fun p _ v => match v with VCand _ c => show_match p c | _ => [] end)).

(** OnexCLI.cpp:422-434 *)
Definition k_commands (e : env) : list (text * (con -> list text -> said)) :=
  [ (T_ "load", k_load); (T_ "save", k_save); (T_ "unload", k_unload); (T_ "list", k_list); (T_ "timer", k_timer);
    (T_ "group", k_group e); (T_ "saveGroup", k_saveGroup); (T_ "loadGroup", k_loadGroup);
    (T_ "normalize", k_normalize); (T_ "paa", k_paa); (T_ "match", k_match e) ].

(** OnexCLI.cpp:488-531 *)
Definition k_processLine (e : env) (k : con) (line : text) : said :=
  let args := tokens [sp] line in
  match args with
  | [] => just k [] (Ran N (k_cli k) false (RNothing N))
  | a :: _ =>
      if starts_comment a then just k [] (Ran N (k_cli k) false (RNothing N))
      else if text_eqb a (T_ "quit") || text_eqb a (T_ "exit") then just k [] (Ran N (k_cli k) true (RNothing N))
      else if text_eqb a (T_ "help") then
        if zlen args =? 1 then just k showAllHelps (Ran N (k_cli k) false (RHelp N))
        else if zlen args =? 2 then just k (showHelp (nth 1 args [])) (Ran N (k_cli k) false (RHelp N))
        else just k (T_ "Error! Too many arguments for 'help'" ++ endl) (Ran N (k_cli k) false (RArgs N))
      else match lookup a (k_commands e) with
           | None => just k (T_ "Error! Cannot find command: " ++ a ++ endl) (Ran N (k_cli k) false (RUnknown N))
           | Some doCommand => doCommand k args
           end
  end.

(** OnexCLI.cpp:570-596: a line that was read; what it writes, the precision, what comes next. *)
Definition k_line (e : env) (k : con) (line : text) : text * Z * next N :=
  let '(t, p, r) := k_processLine e k line in
  match r with
  | Ran _ c true r => (t ++ endl, p, Ended N c r)
  | Ran _ c false r => (t ++ endl, p, Prompt N c r)
  | Raised _ c (OnexExn m) => (t ++ T_ "Error! " ++ T_ m ++ endl ++ endl, p, Prompt N c (RError N m))
  | Raised _ c (LogicExn _) => (t ++ T_ "Error! Cannot convert some value to numeric" ++ endl ++ endl, p, Prompt N c (RNotNumeric N))
  | Raised _ c (OtherExn _) => (t ++ T_ "Error! Unknown error" ++ endl ++ endl, p, Ended N c (RUnexpected N))
  | Undef _ u => (t, p, Crash N u)
  | Loops _ => (t, p, Stuck N)
  end.

(** main (OnexCLI.cpp:550-603) on the lines typed so far; [asking]: inside wantToQuitByEOF (533-548), which begins with endl (535).
    The text is what is written after the welcome. *)
Fixpoint k_run (asking : bool) (k : con) (inputs : list (env * option text)) : text * next N :=
  match inputs with
  | [] => ([], Prompt N (k_cli k) (RNothing N))
  | (e, l) :: rest =>
      if asking then
        match l with
        | None => ([], Ended N (k_cli k) (RNothing N))
        | Some t =>
            if text_eqb t (T_ "y") || text_eqb t [] then ([], Ended N (k_cli k) (RNothing N))
            else k_run (negb (text_eqb t (T_ "n"))) k rest
        end
      else
        match l with
        | None => let '(out, n) := k_run true k rest in (endl ++ out, n)
        | Some t =>
            match k_line e k t with
            | (w, p, Prompt _ c _) => let '(out, n) := k_run false (mkCon c p) rest in (w ++ out, n)
            | (w, _, n) => (w, n)
            end
        end
  end.
(** OnexCLI.cpp:555-558 *)
Definition welcome : text := T_ "Welcome to ONEX!" ++ endl ++ T_ "Use 'help' to see the list of available commands." ++ endl.
Definition con_init (files : string -> option text) : con := mkCon (cli_init N files) 6.
End Console.
