(** * Series as values: what programs that use series may rely on.

    The state has the datasets' arrays and the series; a series owns its values or is a window of an array.  The operations are
    those of TimeSeries.v, on which the rest of the model is built: there is no memory to free, no block shared by two owners
    and no pointer. *)
From Coq Require Import ZArith Bool List String.
From Verif Require Import Outcome Num Distance TimeSeries SeriesMem.
Import ListNotations.
Open Scope Z_scope.

Section SeriesSpec.
Context (N : NumOps).
Local Notation T := (num N).

(** Arrays ([None]: freed) and series ([None]: destroyed). *)
Record vst : Type := mkV { v_heap : heap N; v_objs : list (option (ts N)) }.
Definition v_init : vst := mkV [] [].
Definition series (s : vst) (i : nat) : outcome (ts N) :=
  match nth_error (v_objs s) i with Some (Some t) => Ok t | _ => UB UseAfterFree end.
Definition with_series (s : vst) (h : heap N) (i : nat) (t : option (ts N)) : vst := mkV h (list_set (v_objs s) i t).
Definition add_series (s : vst) (t : ts N) : vst := mkV (v_heap s) (v_objs s ++ [Some t]).
(** A series whose data was moved away. *)
Definition emptied (t : ts N) : ts N := mkTS Null (ts_index t) (ts_start t) (ts_end t) (ts_len t) (ts_cache t).

Definition vstep (s : vst) (o : op N) : outcome (vst * obs N) :=
  match o with
  | MBuf v => Ok (mkV (v_heap s ++ [Some v]) (v_objs s), RNone)
  | MFree b => _ <- heap_get N (v_heap s) b ;; Ok (mkV (list_set (v_heap s) b None) (v_objs s), RNone)
  | MView b base index start end_ =>
      match nth_error (v_heap s) b with
      | Some _ => Ok (add_series s (ts_view b base index start end_), RNone)
      | None => UB OutOfBounds
      end
  | MNew len => t <- ts_new N len ;; Ok (add_series s t, RNone)
  | MCopy i => t <- series s i ;; Ok (add_series s (ts_copy t), RNone)
  | MAssign i j => d <- series s i ;; t <- series s j ;; Ok (with_series s (v_heap s) i (Some (ts_assign d t)), RNone)
  | MMove i j =>
      d <- series s i ;;
      t <- series s j ;;
      let s := with_series s (v_heap s) i (Some (ts_assign d t)) in
      t <- series s j ;;
      Ok (with_series s (v_heap s) j (Some (emptied t)), RNone)
  | MDestroy i => _ <- series s i ;; Ok (with_series s (v_heap s) i None, RNone)
  | MGet i k => t <- series s i ;; x <- ts_get N (v_heap s) t k ;; Ok (s, RVal x)
  | MSet i k x => t <- series s i ;; '(h, t) <- ts_set N (v_heap s) t k x ;; Ok (with_series s h i (Some t), RNone)
  | MAdd i j => t <- series s i ;; u <- series s j ;; '(h, t) <- ts_plus_assign N (v_heap s) t u ;; Ok (with_series s h i (Some t), RNone)
  | MEnv i band => t <- series s i ;; '(t, (l, u)) <- ts_envelope N (v_heap s) t band ;; Ok (with_series s (v_heap s) i (Some t), REnv l u)
  end.

(** Uses that the class does not support: copying or assigning from a series whose data was moved away, assigning a series
    that owns its values to itself, and the envelope of a window with end before start. *)
Definition misuse (s : vst) (o : op N) : Prop :=
  match o with
  | MCopy i => exists t, series s i = Ok t /\ ts_src t = Null
  | MAssign i j => (exists t, series s j = Ok t /\ ts_src t = Null) \/ (i = j /\ exists t v, series s i = Ok t /\ ts_src t = Owned v)
  | MEnv i _ => exists t, series s i = Ok t /\ ts_len t < 0
  | _ => False
  end.
(** A move assignment to a series that owns its values forgets them without freeing them. *)
Definition forgets (s : vst) (o : op N) : Z :=
  match o with
  | MMove i _ => match series s i with Ok t => match ts_src t with Owned _ => 1 | _ => 0 end | _ => 0 end
  | _ => 0
  end.

(** A program that ends normally in the world of values, its results, its final state and how often it forgot an array. *)
Inductive vrun : vst -> list (op N) -> vst -> list (result N) -> Z -> Prop :=
| VDone s : vrun s [] s [] 0
| VRet s o s' r ops s'' rs n : ~ misuse s o -> vstep s o = Ok (s', r) -> vrun s' ops s'' rs n ->
    vrun s (o :: ops) s'' (Returned r :: rs) (forgets s o + n)
| VExn s o e ops s'' rs n : ~ misuse s o -> vstep s o = Throw e -> vrun s ops s'' rs n ->
    vrun s (o :: ops) s'' (Threw e :: rs) n.

(** Every array freed and every series destroyed. *)
Definition all_gone (s : vst) : Prop := (forall b, nth_error (v_heap s) b <> None -> nth_error (v_heap s) b = Some None) /\
  (forall i, nth_error (v_objs s) i <> None -> nth_error (v_objs s) i = Some None).
End SeriesSpec.
Arguments mkV {N}. Arguments v_heap {N}. Arguments v_objs {N}.
