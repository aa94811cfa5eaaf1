(** * Model of src/lib/deque.{h,cpp}: circular array deque of ints. *)
From Coq Require Import ZArith Bool Lia List.
From Verif Require Import Outcome.
Import ListNotations.
Open Scope Z_scope.

(** src/lib/deque.h: the fields of class deque.  [malloc]ed cells start uninitialised ([None]). *)
Record deque : Type := mkDeque {
  dq_data : list (option Z);
  dq_size : Z;
  dq_cap : Z;
  dq_f : Z;
  dq_r : Z
}.

(** src/lib/deque.cpp:5-12 (allocation failure not modelled; a non-positive capacity gives an
    empty array, so that any access is out of bounds). *)
Definition dq_new (capacity : Z) : deque :=
  mkDeque (zrepeat None capacity) 0 capacity 0 (capacity - 1).

(** src/lib/deque.cpp:21-28 *)
Definition dq_push_back (d : deque) (v : Z) : outcome deque :=
  data <- zset (dq_data d) (dq_r d) (Some v) ;;
  let r := dq_r d - 1 in
  let r := if r <? 0 then dq_cap d - 1 else r in
  Ok (mkDeque data (dq_size d + 1) (dq_cap d) (dq_f d) r).

(** src/lib/deque.cpp:31-37 *)
Definition dq_pop_front (d : deque) : deque :=
  let f := dq_f d - 1 in
  let f := if f <? 0 then dq_cap d - 1 else f in
  mkDeque (dq_data d) (dq_size d - 1) (dq_cap d) f (dq_r d).

(** src/lib/deque.cpp:40-44 *)
Definition dq_pop_back (d : deque) : outcome deque :=
  if dq_cap d =? 0 then UB DivZero
  else Ok (mkDeque (dq_data d) (dq_size d - 1) (dq_cap d) (dq_f d)
                   (Z.rem (dq_r d + 1) (dq_cap d))).

(** Reading a cell; an unwritten cell is uninitialised memory. *)
Definition dq_read (d : deque) (i : Z) : outcome Z :=
  x <- zget (dq_data d) i ;;
  match x with Some v => Ok v | None => UB Uninit end.

(** src/lib/deque.cpp:47-54 *)
Definition dq_front (d : deque) : outcome Z :=
  let aux := dq_f d - 1 in
  let aux := if aux <? 0 then dq_cap d - 1 else aux in
  dq_read d aux.

(** src/lib/deque.cpp:57-61 *)
Definition dq_back (d : deque) : outcome Z :=
  if dq_cap d =? 0 then UB DivZero
  else dq_read d (Z.rem (dq_r d + 1) (dq_cap d)).

(** src/lib/deque.cpp:64-67 *)
Definition dq_empty (d : deque) : bool := dq_size d =? 0.
