(** * Model of the memory behind src/TimeSeries.{hpp,cpp}: allocation, copying, assignment, moving and destruction.

    TimeSeries.v models a series by its values; here [data], [keoghLower] and [keoghUpper] are pointers to blocks that are
    allocated and freed one by one.  Simplifications: a block is never reused after it was freed; allocation does not fail. *)
From Coq Require Import ZArith Bool List String.
From Verif Require Import Outcome Num Lemire Distance.
Import ListNotations.
Open Scope Z_scope.

Section SeriesMem.
Context (N : NumOps).
Local Notation T := (num N).

(** An array allocated with new[]; [None] is a cell that was not written yet. *)
Definition block : Type := list (option T).
(** All arrays ever allocated; [None] is one that was freed. *)
Definition mem : Type := list (option block).

(** src/TimeSeries.hpp:175-185; [o_data] is a block and an offset, [None] the null pointer. *)
Record obj : Type := mkObj {
  o_data : option (nat * Z);
  o_owner : bool;
  o_index : Z;
  o_start : Z;
  o_end : Z;
  o_len : Z;
  o_valid : bool;
  o_lower : option nat;
  o_upper : option nat;
  o_band : Z
}.

(** The blocks of the datasets, all series objects ([None] is a destroyed one) and the memory. *)
Record mst : Type := mkMst { m_mem : mem; m_bufs : list nat; m_objs : list (option obj) }.
Definition m_init : mst := mkMst [] [] [].

Inductive op : Type :=
| MBuf (v : list T)                          (* a dataset allocates and fills its array *)
| MFree (b : nat)                            (* and frees it *)
| MView (b : nat) (base index start end_ : Z)
| MNew (length : Z)
| MCopy (i : nat)
| MAssign (i j : nat)                        (* series i = series j *)
| MMove (i j : nat)                          (* series i = std::move(series j) *)
| MDestroy (i : nat)
| MGet (i : nat) (k : Z)
| MSet (i : nat) (k : Z) (x : T)
| MAdd (i j : nat)                           (* series i += series j *)
| MEnv (i : nat) (band : Z).                 (* getKeoghLower and getKeoghUpper *)

(** What a call returns. *)
Inductive obs : Type :=
| RNone
| RVal (x : T)
| REnv (lower upper : uarray N).

(** Memory primitives (C++ language). *)
Definition m_get (m : mem) (b : nat) : outcome block :=
  match nth_error m b with
  | Some (Some l) => Ok l
  | Some None => UB UseAfterFree
  | None => UB OutOfBounds
  end.
Definition m_put (m : mem) (b : nat) (l : block) : mem := list_set m b (Some l).
(** [delete[]]: nothing for the null pointer; freeing twice is undefined behaviour. *)
Definition m_free (m : mem) (p : option nat) : outcome mem :=
  match p with
  | None => Ok m
  | Some b => _ <- m_get m b ;; Ok (list_set m b None)
  end.
Definition ptr (p : option (nat * Z)) : option nat := match p with Some (b, _) => Some b | None => None end.
Definition obj_at (s : mst) (i : nat) : outcome obj :=
  match nth_error (m_objs s) i with Some (Some o) => Ok o | _ => UB UseAfterFree end.
Definition set_obj (s : mst) (m : mem) (i : nat) (o : option obj) : mst := mkMst m (m_bufs s) (list_set (m_objs s) i o).
Definition add_obj (s : mst) (m : mem) (o : obj) : mst := mkMst m (m_bufs s) (m_objs s ++ [Some o]).

Definition cell (l : block) (i : Z) : outcome T :=
  x <- zget l i ;; match x with Some v => Ok v | None => UB Uninit end.
(** [data[start + i]] read and written. *)
Definition obj_read (m : mem) (o : obj) (i : Z) : outcome T :=
  match o_data o with
  | Some (b, base) => l <- m_get m b ;; cell l (base + o_start o + i)
  | None => UB NullDeref
  end.
Definition obj_write (m : mem) (o : obj) (i : Z) (x : T) : outcome mem :=
  match o_data o with
  | Some (b, base) => l <- m_get m b ;; l <- zset l (base + o_start o + i) (Some x) ;; Ok (m_put m b l)
  | None => UB NullDeref
  end.
Definition range_error : string := "Data point index is out of range".
(** src/TimeSeries.cpp:62-68 *)
Definition obj_get (m : mem) (o : obj) (i : Z) : outcome T :=
  if (i <? 0) || (o_len o <=? i) then Throw (OnexExn range_error) else obj_read m o i.
Definition obj_set (m : mem) (o : obj) (i : Z) (x : T) : outcome mem :=
  if (i <? 0) || (o_len o <=? i) then Throw (OnexExn range_error) else obj_write m o i x.

(** memcpy of [len] cells from a pointer into a fresh block. *)
Definition copy_cells (m : mem) (src : option (nat * Z)) (len : Z) : outcome block :=
  match src with
  | Some (b, base) =>
      l <- m_get m b ;;
      if (base <? 0) || (zlen l <? base + len) then UB OutOfBounds else Ok (zslice l base len)
  | None => UB NullDeref
  end.

Fixpoint all_set (l : block) : outcome (list T) :=
  match l with
  | [] => Ok []
  | Some x :: l => v <- all_set l ;; Ok (x :: v)
  | None :: _ => UB Uninit
  end.
(** The values [data[start .. start+length-1]] that lower_upper_lemire reads (same simplification as [ts_read]). *)
Definition obj_values (m : mem) (o : obj) : outcome (list T) :=
  match o_data o with
  | Some (b, base) =>
      l <- m_get m b ;;
      if o_len o <=? 0 then Ok []
      else if (base + o_start o <? 0) || (zlen l <? base + o_start o + o_len o) then UB OutOfBounds
      else all_set (zslice l (base + o_start o) (o_len o))
  | None => if o_len o <=? 0 then Ok [] else UB NullDeref
  end.

(** src/TimeSeries.hpp:48-51; the pointer [data] is a dataset's array plus [base] (TimeSeriesSet.cpp:192-207). *)
Definition op_view (s : mst) (b : nat) (base index start end_ : Z) : outcome (mst * obs) :=
  match nth_error (m_bufs s) b with
  | Some p => Ok (add_obj s (m_mem s) (mkObj (Some (p, base)) false index start end_ (end_ - start) false None None 0), RNone)
  | None => UB OutOfBounds
  end.
(** src/TimeSeries.hpp:76-81 *)
Definition op_new (s : mst) (len : Z) : outcome (mst * obs) :=
  if len <? 0 then Throw (OtherExn "std::bad_array_new_length")
  else Ok (add_obj s (m_mem s ++ [Some (zrepeat (Some (nzero N)) len)])
                   (mkObj (Some (List.length (m_mem s), 0)) true 0 0 len len false None None 0), RNone).
(** src/TimeSeries.hpp:86-101 *)
Definition op_copy (s : mst) (i : nat) : outcome (mst * obs) :=
  o <- obj_at s i ;;
  if o_owner o then
    l <- copy_cells (m_mem s) (o_data o) (o_len o) ;;
    Ok (add_obj s (m_mem s ++ [Some l])
          (mkObj (Some (List.length (m_mem s), 0)) true (o_index o) (o_start o) (o_end o) (o_len o) false None None 0), RNone)
  else Ok (add_obj s (m_mem s) (mkObj (o_data o) false (o_index o) (o_start o) (o_end o) (o_len o) false None None 0), RNone).
(** src/TimeSeries.cpp:15-34.  In a self-assignment [other.data] is the new array when it is copied (line 28), so the
    copy has no values. *)
Definition op_assign (s : mst) (i j : nat) : outcome (mst * obs) :=
  d <- obj_at s i ;;
  o <- obj_at s j ;;
  m <- (if o_owner d then m_free (m_mem s) (ptr (o_data d)) else Ok (m_mem s)) ;;
  if o_owner o then
    l <- (if Nat.eqb i j then Ok (zrepeat None (o_len o)) else copy_cells m (o_data o) (o_len o)) ;;
    Ok (set_obj s (m ++ [Some l]) i
          (Some (mkObj (Some (List.length m, 0)) true (o_index o) (o_start o) (o_end o) (o_len o)
                       (o_valid d) (o_lower d) (o_upper d) (o_band d))), RNone)
  else Ok (set_obj s m i
          (Some (mkObj (o_data o) false (o_index o) (o_start o) (o_end o) (o_len o)
                       (o_valid d) (o_lower d) (o_upper d) (o_band d))), RNone).
Definition without_data (o : obj) : obj :=
  mkObj None (o_owner o) (o_index o) (o_start o) (o_end o) (o_len o) (o_valid o) (o_lower o) (o_upper o) (o_band o).
(** src/TimeSeries.cpp:36-46: the old array of the assigned object is not freed. *)
Definition op_move (s : mst) (i j : nat) : outcome (mst * obs) :=
  d <- obj_at s i ;;
  o <- obj_at s j ;;
  let d' := mkObj (o_data o) (o_owner o) (o_index o) (o_start o) (o_end o) (o_len o)
                  (o_valid d) (o_lower d) (o_upper d) (o_band d) in
  let s := set_obj s (m_mem s) i (Some d') in
  o <- obj_at s j ;;
  Ok (set_obj s (m_mem s) j (Some (without_data o)), RNone).
(** src/TimeSeries.cpp:48-60.  Line 53 uses [delete] for an array: undefined behaviour if [strict], else like [delete[]],
    as the usual implementations do for arrays of numbers. *)
Definition op_destroy (strict : bool) (s : mst) (i : nat) : outcome (mst * obs) :=
  o <- obj_at s i ;;
  m <- (if o_owner o
        then match o_data o with
             | Some (b, _) => if strict then UB BadDelete else m_free (m_mem s) (Some b)
             | None => Ok (m_mem s)
             end
        else Ok (m_mem s)) ;;
  m <- m_free m (o_lower o) ;;
  m <- m_free m (o_upper o) ;;
  Ok (set_obj s m i None, RNone).
(** src/TimeSeries.cpp:70-82 *)
Definition op_add (s : mst) (i j : nat) : outcome (mst * obs) :=
  t <- obj_at s i ;;
  o <- obj_at s j ;;
  if negb (o_len o =? o_len t) then Throw (OnexExn "Two time series must have the same length for addition")
  else
    m <- for_ 0 (o_len t) (fun k m =>
           y <- obj_get m o k ;;
           x <- obj_read m t k ;;
           obj_write m t k (nadd N x y)) (m_mem s) ;;
    Ok (set_obj s m i (Some (mkObj (o_data t) (o_owner t) (o_index t) (o_start t) (o_end t) (o_len t)
                                   false (o_lower t) (o_upper t) (o_band t))), RNone).
Definition cached (m : mem) (p : option nat) : outcome block :=
  match p with Some b => m_get m b | None => UB NullDeref end.
(** src/TimeSeries.cpp:84-119: the arrays are freed and allocated again when the envelope is computed. *)
Definition op_env (s : mst) (i : nat) (band : Z) : outcome (mst * obs) :=
  o <- obj_at s i ;;
  if o_valid o && (o_band o =? band) then
    l <- cached (m_mem s) (o_lower o) ;;
    u <- cached (m_mem s) (o_upper o) ;;
    Ok (s, REnv l u)
  else if o_len o <? 0 then Throw (OtherExn "std::bad_array_new_length")
  else
    m <- m_free (m_mem s) (o_lower o) ;;
    m <- m_free m (o_upper o) ;;
    let bl := List.length m in
    let m := m ++ [Some (zrepeat None (o_len o))] in
    let bu := List.length m in
    let m := m ++ [Some (zrepeat None (o_len o))] in
    v <- obj_values m o ;;
    '(l, u) <- generateKeoghLU N v band ;;
    let m := m_put (m_put m bl l) bu u in
    Ok (set_obj s m i (Some (mkObj (o_data o) (o_owner o) (o_index o) (o_start o) (o_end o) (o_len o)
                                   true (Some bl) (Some bu) band)), REnv l u).

(** One call.  src/TimeSeriesSet.cpp:186 frees a dataset's array with [delete[]]. *)
Definition mstep (strict : bool) (s : mst) (o : op) : outcome (mst * obs) :=
  match o with
  | MBuf v => Ok (mkMst (m_mem s ++ [Some (map Some v)]) (m_bufs s ++ [List.length (m_mem s)]) (m_objs s), RNone)
  | MFree b =>
      match nth_error (m_bufs s) b with
      | Some p => m <- m_free (m_mem s) (Some p) ;; Ok (mkMst m (m_bufs s) (m_objs s), RNone)
      | None => UB OutOfBounds
      end
  | MView b base index start end_ => op_view s b base index start end_
  | MNew len => op_new s len
  | MCopy i => op_copy s i
  | MAssign i j => op_assign s i j
  | MMove i j => op_move s i j
  | MDestroy i => op_destroy strict s i
  | MGet i k => o <- obj_at s i ;; x <- obj_get (m_mem s) o k ;; Ok (s, RVal x)
  | MSet i k x => o <- obj_at s i ;; m <- obj_set (m_mem s) o k x ;; Ok (mkMst m (m_bufs s) (m_objs s), RNone)
  | MAdd i j => op_add s i j
  | MEnv i band => op_env s i band
  end.

(** A program: calls one after the other; an exception is caught and the program goes on. *)
Inductive result : Type := Returned (r : obs) | Threw (e : exn).
Fixpoint mrun (strict : bool) (s : mst) (ops : list op) : outcome (mst * list result) :=
  match ops with
  | [] => Ok (s, [])
  | o :: ops =>
      match mstep strict s o with
      | Ok (s', r) => '(s'', rs) <- mrun strict s' ops ;; Ok (s'', Returned r :: rs)
      | Throw e => '(s'', rs) <- mrun strict s ops ;; Ok (s'', Threw e :: rs)
      | UB u => UB u
      | NoFuel => NoFuel
      end
  end.

(** Arrays that are still allocated. *)
Definition live (m : mem) : Z := zlen (filter (fun b => match b with Some _ => true | None => false end) m).
End SeriesMem.
Arguments mkMst {N}. Arguments m_mem {N}. Arguments m_bufs {N}. Arguments m_objs {N}.
Arguments MBuf {N}. Arguments MFree {N}. Arguments MView {N}. Arguments MNew {N}. Arguments MCopy {N}. Arguments MAssign {N}.
Arguments MMove {N}. Arguments MDestroy {N}. Arguments MGet {N}. Arguments MSet {N}. Arguments MAdd {N}. Arguments MEnv {N}.
Arguments RNone {N}. Arguments RVal {N}. Arguments REnv {N}. Arguments Returned {N}. Arguments Threw {N}. Arguments live {N}.
