(** * Specification of the calls whose sizes fit the program's 32-bit integers. *)
From Coq Require Import ZArith SpecFloat Ascii String List.
From Verif Require Import Outcome Num TimeSeries Text Dataset Groups Api GroupSpec Properties_Ints.
Import ListNotations.
Open Scope Z_scope.

Section Within.
Context (writable : string -> bool) (files : string -> option text).

(** The numbers that the call [o] creates fit 32 bits: the rows times the columns of a file that is loaded, the
    number of groups that a grouping or the loading of groups returns, and the percentages of the messages that are
    printed while grouping.  No other call creates numbers that are not bounded by these. *)
Definition within (s : st F64) (o : op F64) : Prop :=
  match o with
  | OpLoad _ p m c seps => 0 <= c <= 2147483647 /\ forall contents, st_files F64 s p = Some contents ->
      zlen (lines contents) <= 2147483647 /\ first_columns contents seps <= 2147483647 /\
      rows_read contents m * first_columns contents seps <= 2147483647
  | OpGroup _ i thr clock =>
      (forall s' n, step F64 F64_IO writable s o = Done F64 s' (VInt F64 n) -> n <= 2147483647) /\
      forall d, has_dataset F64 s i d -> messages_fit s clock (set_count (ds_set F64 d)) (set_len (ds_set F64 d))
  | OpLoadGroup _ i p => forall s' n, step F64 F64_IO writable s o = Done F64 s' (VInt F64 n) -> n <= 2147483647
  | _ => True
  end.
(** Every call of the history is within the range when its turn comes. *)
Definition within_history (ops : list (op F64)) : Prop :=
  forall past o rest s, ops = past ++ o :: rest ->
    run F64 F64_IO writable (st_init F64 files) past = Some s -> within s o.

(** Sizes that are within the range: data files of at most 131070 characters, group files of at most 2147483647
    characters, and groupings of datasets of at most 21474836 values and 2147483647 subsequences. *)
Definition small (s : st F64) (o : op F64) : Prop :=
  match o with
  | OpLoad _ p m c seps => 0 <= c <= 2147483647 /\ forall contents, st_files F64 s p = Some contents -> zlen contents <= 131070
  | OpGroup _ i thr clock => forall d, has_dataset F64 s i d ->
      set_count (ds_set F64 d) * set_len (ds_set F64 d) <= 21474836 /\
      set_count (ds_set F64 d) * (set_len (ds_set F64 d) * (set_len (ds_set F64 d) - 1)) <= 2 * 2147483647
  | OpLoadGroup _ i p => forall contents, st_files F64 s p = Some contents -> zlen contents <= 2147483647
  | _ => True
  end.
Definition small_history (ops : list (op F64)) : Prop :=
  forall past o rest s, ops = past ++ o :: rest ->
    run F64 F64_IO writable (st_init F64 files) past = Some s -> small s o.
End Within.
