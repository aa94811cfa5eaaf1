(** * Specification of the console (C64).

    [typed]: the inputs so far, the state of the program at its prompt, what it wrote, and whether a timed command has succeeded while the timer
    was on. *)
From Coq Require Import ZArith Bool Ascii String List.
From Verif Require Import Outcome Num TimeSeries Text Dataset Groups Api GroupSpec Cli CliSpec Console.
Import ListNotations.
Open Scope Z_scope.

(** A text that is (part of) one line. *)
Definition one_line (t : text) : Prop := ~ In nl t.
(** What readline returns is one line; so is the elapsed time as printed. *)
Definition one_line_inputs (ins : list (env * option text)) : Prop := forall e t, In (e, Some t) ins -> one_line t.
(** Some line of the text begins with "Error! ". *)
Definition error_line (t : text) : Prop := exists pre post, t = pre ++ T_ "Error! " ++ post /\ (pre = [] \/ exists pre', pre = pre' ++ [nl]).

(** The line that reports a match: series, first position, length, distance. *)
Definition match_text (i s l : Z) (d : text) : text :=
  T_ "Best Match is timeseries " ++ print_Z i ++ T_ " starting at " ++ print_Z s ++ T_ " with length " ++ print_Z l ++ T_ ". Distance = " ++ d ++ [nl].
(** The line that reports the time. *)
Definition time_text (elapsed : text) : text := T_ "Command executed in " ++ elapsed ++ T_ "s" ++ [nl].
(** One line made of parts. *)
Definition line_text (parts : list text) : text := concat parts ++ [nl].
(** The lines that describe a dataset. *)
Definition info_text (title : string) (i : info) : text :=
  line_text [T_ title] ++ line_text [T_ "  Name:        "; T_ (i_name i)] ++ line_text [T_ "  ID:          "; print_Z (i_id i)] ++
  line_text [T_ "  Item count:  "; print_Z (i_count i)] ++ line_text [T_ "  Item length: "; print_Z (i_length i)].
(** The log of the grouping of one length: it says how many of the [total] subsequences are done, at the multiples of a fifth of [total]. *)
Definition increasing (l : list Z) : Prop := forall i j x y, (i < j)%nat -> nth_error l i = Some x -> nth_error l j = Some y -> x < y.
Definition progress_text (l total : Z) (t : text) : Prop := exists done, increasing done /\ (forall c, In c done <-> 1 <= c <= total /\ (total / 5 | c)) /\
  t = line_text [T_ "Processing time series space of length "; print_Z l] ++
      concat (map (fun c => line_text [T_ "  Grouping progress... "; print_Z c; T_ "/"; print_Z total; T_ " ("; print_Z (c * 100 / total); T_ "%)"]) done).
(** The logs of several lengths in order. *)
Definition log_text (count len : Z) (logged : Z -> Prop) (t : text) : Prop := exists ls ts, increasing ls /\ (forall l, In l ls <-> 2 <= l <= len /\ logged l) /\
  Forall2 (fun l t => progress_text l ((len - l + 1) * count) t) ls ts /\ t = concat ts.
(** The text has this line (up to blanks between the parts). *)
Definition has_line (t : text) (a b : text) : Prop := exists pre n post, t = pre ++ a ++ repeat sp n ++ b ++ [nl] ++ post /\ (pre = [] \/ exists pre', pre = pre' ++ [nl]).
(** What the list shows of a dataset. *)
Definition shown (i : info) : Z * string * bool * bool := (i_id i, i_name i, i_normalized i, i_grouped i).

Section ConsoleSpec.
Context (N : NumOps) (IO : NumIO N) (writable : string -> bool).

(** The commands that are timed. *)
Definition timed_op (o : op N) : Prop := match o with OpGroup _ _ _ _ | OpMatch _ _ _ _ _ _ => True | _ => False end.
(** The line asks for a timed operation, the operation succeeds, and the timer is on. *)
Definition timed_success (e : env) (k : con N) (line : text) : Prop :=
  c_timer N (k_cli N k) = true /\ exists ws o s v, words ws line /\ says N IO ws o /\ at_clock N (e_clock e) o /\ timed_op o /\
    step N IO writable (c_api N (k_cli N k)) o = Done N s v.

(** What a successful command says about its answer; [p] is the number of digits. *)
Inductive answer_text (p : Z) : op N -> value N -> text -> Prop :=
| at_load f m c seps i : answer_text p (OpLoad N f m c seps) (VInfo N i) (info_text "Dataset loaded                         " i)
| at_save i f sep : answer_text p (OpSave N i f sep) (VUnit N) (line_text [T_ "Saved dataset "; print_Z i; T_ " to "; T_ f])
| at_unload i : answer_text p (OpUnload N i) (VUnit N) (line_text [T_ "Dataset "; print_Z i; T_ " is unloaded"])
| at_list l : answer_text p (OpAllInfo N) (VInfos N l) (show_list l)
| at_normalize i a b : answer_text p (OpNormalize N i) (VPair N a b) (line_text [T_ "Dataset "; print_Z i; T_ " is now normalized"])
| at_group i thr clock n : answer_text p (OpGroup N i thr clock) (VInt N n)
    (line_text [T_ "Dataset "; print_Z i; T_ " is now grouped"] ++ line_text [T_ "Number of Groups: "; print_Z n])
| at_saveGroup i f b : answer_text p (OpSaveGroup N i f b) (VUnit N) (line_text [T_ "Saved groups of dataset "; print_Z i; T_ " to "; T_ f])
| at_loadGroup i f n : answer_text p (OpLoadGroup N i f) (VInt N n) (print_Z n ++ T_ " groups loaded for dataset " ++ print_Z i)
| at_paa i n x : answer_text p (OpPAA N i n) (VInfo N x) (info_text "Dataset PAA-ed                     " x)
| at_match r q ix a b c : answer_text p (OpMatch N r q ix a b) (VCand N c)
    (match_text (ts_index (cand_data c)) (ts_start (cand_data c)) (ts_len (cand_data c)) (io_print IO p (cand_dist c))).
(** What is written while the call [o] succeeds in the session [s]: the log of a grouping (at the lengths at which it is due, and at length 2 in
    the first grouping of all), a remark when groups are loaded. *)
Definition while_text (s : st N) (o : op N) (t : text) : Prop :=
  match o with
  | OpGroup _ i _ clock => exists d, has_dataset N s i d /\
      log_text (set_count (ds_set N d)) (set_len (ds_set N d)) (fun l => clock l = true \/ (st_logged N s = false /\ l = 2)) t
  | OpLoadGroup _ _ _ => t = line_text [T_ "Saved groups are compatible with the dataset"]
  | _ => t = []
  end.

(** The answers to "Do you really want to exit" before the last, which is "n". *)
Definition unclear (i : env * option text) : Prop := match snd i with Some t => ~ In t [T_ "y"; []; T_ "n"] | None => False end.
Inductive typed (files : string -> option text) : list (env * option text) -> con N -> text -> Prop -> Prop :=
| typed_nothing : typed files [] (con_init N files) [] False
| typed_line ins k out P e line w p c r : typed files ins k out P -> k_line N IO writable e k line = (w, p, Prompt N c r) ->
    typed files (ins ++ [(e, Some line)]) (mkCon N c p) (out ++ w) (P \/ timed_success e k line)
| typed_no ins k out P e answers e' : typed files ins k out P -> Forall unclear answers ->
    typed files (ins ++ (e, None) :: answers ++ [(e', Some (T_ "n"))]) k (out ++ [nl]) P.

(** The program refused the line or the API threw. *)
Definition refused (ws : list text) (r : reply N) : Prop :=
  match r with
  | RUnknown _ | RArgs _ | RRefused _ | RError _ _ | RNotNumeric _ | RUnexpected _ => True
  | RHelp _ => exists w, ws = [T_ "help"; w] /\ ~ known w /\ ~ In w [T_ "help"; T_ "exit"; T_ "quit"]
  | _ => False
  end.
(** The names of the datasets. *)
Definition named (s : st N) (p : string) : Prop := exists i d, has_dataset N s i d /\ set_path (ds_set N d) = p.
End ConsoleSpec.
