(** * Specification of the command line (C49): which API operation a line asks for, how many arguments the commands take.

    Lines are split at blanks ([line_of] of FileSpec.v with the separator space). *)
From Coq Require Import ZArith Bool Ascii String List.
From Verif Require Import Outcome Num Text Groups Api DecSpec NumSpec FileSpec Cli.
Import ListNotations.
Open Scope Z_scope.

(** The words of a line. *)
Definition words (ws : list text) (line : text) : Prop := line_of [" "%char] ws line.

(** The word [w] stands for the int [z]: white space, a sign and digits in the range of int; whatever follows the digits
    is ignored. *)
Definition int_word (w : text) (z : Z) : Prop :=
  exists s t r, w = s ++ t ++ r /\ Forall white s /\ int_text t z /\ (forall c r', r = c :: r' -> ~ digit c) /\
    - 2 ^ 31 <= z < 2 ^ 31.

(** How many arguments follow the name of each command: at least, at most. *)
Definition limits : list (string * (Z * Z)) :=
  [ ("load", (1, 4)); ("save", (2, 3)); ("unload", (1, 4)); ("list", (1, 1)); ("timer", (0, 1)); ("group", (2, 2));
    ("saveGroup", (2, 3)); ("loadGroup", (2, 2)); ("normalize", (1, 1)); ("paa", (2, 2)); ("match", (3, 5)) ]%string.
Definition known (w : text) : Prop := exists c lo hi, In (c, (lo, hi)) limits /\ w = T_ c.
(** Which of the arguments are integers (0 is the first argument). *)
Definition int_positions : list (string * list Z) :=
  [ ("load", [1; 2]); ("save", [0]); ("unload", [0]); ("group", [0]); ("saveGroup", [0; 2]); ("loadGroup", [0]);
    ("normalize", [0]); ("paa", [0; 1]); ("match", [0; 1; 2; 3; 4]) ]%string.

Definition comment (w : text) : Prop := exists r, w = T_ "//" ++ r.

(** The line asks for a match with a start but no end. *)
Definition match_no_end (ws : list text) : Prop :=
  exists a b c d i j k l, ws = [T_ "match"; a; b; c; d] /\ int_word a i /\ int_word b j /\ int_word c k /\ int_word d l.

Section CliSpec.
Context (N : NumOps) (IO : NumIO N).

(** The line with these words asks for this operation. *)
Inductive says : list text -> op N -> Prop :=
| says_load p : says [T_ "load"; p] (OpLoad N (str p) 0 0 [" "%char])
| says_load_rows p a m : int_word a m -> says [T_ "load"; p; a] (OpLoad N (str p) m 0 [" "%char])
| says_load_cols p a b m k : int_word a m -> int_word b k -> says [T_ "load"; p; a; b] (OpLoad N (str p) m k [" "%char])
| says_load_seps p a b m k seps : int_word a m -> int_word b k -> says [T_ "load"; p; a; b; seps] (OpLoad N (str p) m k seps)
| says_save a i p : int_word a i -> says [T_ "save"; a; p] (OpSave N i (str p) " "%char)
| says_save_sep a i p ch t : int_word a i -> ch <> "010"%char -> says [T_ "save"; a; p; ch :: t] (OpSave N i (str p) ch)
| says_save_nl a i p t : int_word a i -> says [T_ "save"; a; p; "010"%char :: t] (OpSave N i (str p) " "%char)
| says_unload a i r : int_word a i -> (List.length r <= 3)%nat -> says (T_ "unload" :: a :: r) (OpUnload N i)
| says_list : says [T_ "list"; T_ "dataset"] (OpAllInfo N)
| says_group a i b thr clock : int_word a i -> io_stod IO b = Ok thr -> says [T_ "group"; a; b] (OpGroup N i thr clock)
| says_saveGroup a i p : int_word a i -> says [T_ "saveGroup"; a; p] (OpSaveGroup N i (str p) false)
| says_saveGroup_only a i p b z : int_word a i -> int_word b z -> z <> 0 -> says [T_ "saveGroup"; a; p; b] (OpSaveGroup N i (str p) true)
| says_saveGroup_full a i p b : int_word a i -> int_word b 0 -> says [T_ "saveGroup"; a; p; b] (OpSaveGroup N i (str p) false)
| says_loadGroup a i p : int_word a i -> says [T_ "loadGroup"; a; p] (OpLoadGroup N i (str p))
| says_normalize a i : int_word a i -> says [T_ "normalize"; a] (OpNormalize N i)
| says_paa a i b n : int_word a i -> int_word b n -> says [T_ "paa"; a; b] (OpPAA N i n)
| says_match a i b j c k : int_word a i -> int_word b j -> int_word c k ->
    says [T_ "match"; a; b; c] (OpMatch N i j k (-1) (-1))
| says_match_part a i b j c k d s e f : int_word a i -> int_word b j -> int_word c k -> int_word d s -> int_word e f ->
    says [T_ "match"; a; b; c; d; e] (OpMatch N i j k s f).

(** The clock of a grouping is that of the moment at which the line is executed. *)
Definition at_clock (clock : Z -> bool) (o : op N) : Prop := match o with OpGroup _ _ _ c => c = clock | _ => True end.

(** What the user sees of an API call: the answer and the prompt; an error message and the prompt for an
    OnexException; "cannot convert" and the prompt for a logic_error; the end of the program for any other exception.
    The session is the one that the call leaves behind. *)
Definition shows (timer : bool) (r : res N) : next N :=
  match r with
  | Done _ s v => Prompt N (mkCli N s timer) (RAnswer N v)
  | Exn _ s (OnexExn m) => Prompt N (mkCli N s timer) (RError N m)
  | Exn _ s (LogicExn _) => Prompt N (mkCli N s timer) (RNotNumeric N)
  | Exn _ s (OtherExn _) => Ended N (mkCli N s timer) (RUnexpected N)
  | Bad _ u => Crash N u
  | Hang _ => Stuck N
  end.

(** The program state after a line, if there is one. *)
Definition state_after (n : next N) : option (cli N) := match n with Prompt _ c _ | Ended _ c _ => Some c | _ => None end.
End CliSpec.
