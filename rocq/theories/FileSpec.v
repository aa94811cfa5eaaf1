(** * Specification of the text tables read by loadDataset: lines, columns, rows read.

    Nothing here refers to the model; it is used by the statements of C36 - C39. *)
From Coq Require Import ZArith List Ascii.
From Verif Require Import Outcome Num Text.
Import ListNotations.
Open Scope Z_scope.

(** [file_of ls t]: the text [t] consists of the lines [ls]; every line but the last must be ended by a newline. *)
Inductive file_of : list text -> text -> Prop :=
| fo_end : file_of [] []
| fo_last l : l <> [] -> ~ In nl l -> file_of [l] l
| fo_line l ls t : ~ In nl l -> file_of ls t -> file_of (l :: ls) (l ++ nl :: t).

(** [line_of seps toks l]: the line [l] consists of the columns [toks] with separators between them; a column is not
    empty and contains no separator, separators may be repeated and may start or end the line. *)
Inductive line_of (seps : text) : list text -> text -> Prop :=
| lo_end s : Forall (fun c => In c seps) s -> line_of seps [] s
| lo_tok s tok rest toks : Forall (fun c => In c seps) s -> tok <> [] -> Forall (fun c => ~ In c seps) tok ->
    (rest = [] \/ exists c r, rest = c :: r /\ In c seps) -> line_of seps toks rest ->
    line_of seps (tok :: toks) (s ++ tok ++ rest).

(** At most [m] rows are read if [m] is positive, all otherwise. *)
Definition rows_read {A} (m : Z) (l : list A) : list A := if m <=? 0 then l else firstn (Z.to_nat m) l.

(** The rows of the file [t] that are read, as lists of columns. *)
Definition table (seps : text) (m : Z) (t : text) (rows : list (list text)) : Prop :=
  exists ls, file_of ls t /\ Forall2 (line_of seps) rows (rows_read m ls).

(** Converting text to a number gives a value or a std::logic_error. *)
Definition stod_ok {N} (IO : NumIO N) : Prop :=
  forall t, (exists v, io_stod IO t = Ok v) \/ (exists k, io_stod IO t = Throw (LogicExn k)).
Definition parses {N} (IO : NumIO N) (t : text) : Prop := exists v, io_stod IO t = Ok v.
