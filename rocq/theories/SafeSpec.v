(** * Specification of the calls that are safe at some point of a session.

    The conditions are about the arguments of the call, the datasets as [getDatasetInfo] and [getTimeSeries] show them,
    the contents of the file that is read, and the earlier calls; nothing refers to how the groups are stored. *)
From Coq Require Import ZArith Reals Ascii String List.
From Verif Require Import Outcome Num TimeSeries Text Dataset Groups Api F64Base Numeric GroupSpec FileSpec DecSpec NumSpec GroupFileSpec.
Import ListNotations.
Open Scope Z_scope.

Section Safe.
Context (writable : string -> bool) (files : string -> option text).

(** The call [o] after the calls [before] gave new groups to dataset [i]. *)
Definition regroups (i : Z) (before : list (op F64)) (o : op F64) : Prop :=
  (exists thr clock, o = OpGroup F64 i thr clock) \/
  (exists p s s' v, o = OpLoadGroup F64 i p /\ run F64 F64_IO writable (st_init F64 files) before = Some s /\
     step F64 F64_IO writable s o = Done F64 s' v).
(** Since the last time that dataset [i] was grouped, or its groups were loaded, it was not reduced by PAA. *)
Definition fresh (i : Z) (past : list (op F64)) : Prop :=
  exists before o later, past = before ++ o :: later /\ regroups i before o /\
    Forall (fun o => match o with OpPAA _ j n => j <> i \/ n <= 0 | _ => True end) later.

(** The file [t] has another version, or is for another number of series or another length than [cnt] and [len]. *)
Definition other_file (cnt len : Z) (t : text) : Prop :=
  (exists v r, first_int t v r /\ v <> 1) \/
  (exists thr cnt' len' r, header t 1 thr cnt' len' r /\ (cnt' <> cnt \/ len' <> len)).
(** The file [t] has groups for [cnt] series of length [len]: a group of each length at least, no member twice, and
    values up to 2^500. *)
Definition fitting_file (cnt len : Z) (t : text) : Prop :=
  exists thr name f, group_file t thr cnt len name f /\
    In name [list_ascii_of_string "euclidean"; list_ascii_of_string "euclidean_dtw"] /\
    sized len f /\ members_exist cnt len f /\ listed_once len f /\
    forall L, 2 <= L <= len -> f L <> [] /\ forall v cs, In (v, cs) (f L) -> Forall small64 v.

(** The call [o] is safe in session [s] after the calls [past]. *)
Definition safe (past : list (op F64)) (s : st F64) (o : op F64) : Prop :=
  match o with
  (* The start column is a column of the file, or just behind the last one. *)
  | OpLoad _ p m c seps => forall contents first rest,
      st_files F64 s p = Some contents -> table seps m contents (first :: rest) -> 0 <= c <= zlen first
  (* The series have a point. *)
  | OpPAA _ i n => forall d, has_dataset F64 s i d -> n <= 0 \/ 1 <= set_len (ds_set F64 d)
  (* The threshold is a number, and there are five subsequences of each length when a message may be due. *)
  | OpGroup _ i thr clock => forall d, has_dataset F64 s i d -> set_buf (ds_set F64 d) <> None ->
      fin64 thr /\ set_len (ds_set F64 d) <= 2 ^ 30 /\
      forall L, 2 <= L <= set_len (ds_set F64 d) -> clock L = true \/ L = 2 ->
        5 <= (set_len (ds_set F64 d) - L + 1) * set_count (ds_set F64 d)
  | OpSetRatio _ r => fin64 r /\ (0 <= val r <= 1)%R
  | OpSaveGroup _ i _ _ => forall d, has_dataset F64 s i d -> ds_groups F64 d <> None -> fresh i past
  (* The file, if there is one, is refused at once or fits. *)
  | OpLoadGroup _ i p => forall d t, has_dataset F64 s i d -> st_files F64 s p = Some t ->
      other_file (set_count (ds_set F64 d)) (set_len (ds_set F64 d)) t \/
      set_buf (ds_set F64 d) <> None /\ set_len (ds_set F64 d) <= 2 ^ 30 /\
      fitting_file (set_count (ds_set F64 d)) (set_len (ds_set F64 d)) t
  (* The query is not longer than the series it is compared with, and the values are at most 2^500. *)
  | OpMatch _ r q ix a e => forall d qv, has_dataset F64 s r d -> ds_groups F64 d <> None ->
      query_is F64 s q ix a e qv -> 2 <= zlen qv ->
      fresh r past /\ 1 <= set_count (ds_set F64 d) /\ zlen qv <= set_len (ds_set F64 d) <= 2 ^ 20 /\
      Forall small64 qv /\
      forall data t j x, dataset F64 s r d data -> cell F64 d data t j x -> small64 x
  | _ => True
  end.

(** Every call of the history is safe when its turn comes. *)
Definition safe_history (ops : list (op F64)) : Prop :=
  forall past o rest s, ops = past ++ o :: rest ->
    run F64 F64_IO writable (st_init F64 files) past = Some s -> safe past s o.
End Safe.
