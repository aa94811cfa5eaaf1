(** * Model of src/TimeSeries.{hpp,cpp}: views into dataset buffers, owned series, and the mutable
    Keogh cache; and of the distances of src/distance/Distance.cpp on such series. *)
From Coq Require Import ZArith Bool Lia List String.
From Verif Require Import Outcome Num Lemire Distance.
Import ListNotations.
Open Scope Z_scope.

Section TimeSeries.
Context (N : NumOps).
Local Notation T := (num N).

(** The data buffers of datasets.  A buffer is identified by its position; [None] marks a buffer
    that has been freed. *)
Definition heap : Type := list (option (list T)).

(** What [TimeSeries::data] points to. *)
Inductive tsrc : Type :=
| View (buf : nat) (base : Z)   (* into dataset buffer [buf], at offset [base]; isOwnerOfData = false *)
| Owned (vals : list T)         (* own array; isOwnerOfData = true *)
| Null.                         (* nullptr *)

(** keoghLower / keoghUpper / cachedWarpingBand when keoghCacheValid. *)
Record kcache : Type := mkCache {
  kc_band : Z;
  kc_lower : uarray N;
  kc_upper : uarray N
}.

(** src/TimeSeries.hpp:175-185.  [ts_cache = None] models keoghCacheValid = false. *)
Record ts : Type := mkTS {
  ts_src : tsrc;
  ts_index : Z;
  ts_start : Z;
  ts_end : Z;
  ts_len : Z;
  ts_cache : option kcache
}.

(** src/TimeSeries.hpp:48-51 *)
Definition ts_view (buf : nat) (base index start end_ : Z) : ts :=
  mkTS (View buf base) index start end_ (end_ - start) None.

(** src/TimeSeries.hpp:76-81; a negative length makes [new data_t[length]] throw
    std::bad_array_new_length. *)
Definition ts_new (length : Z) : outcome ts :=
  if length <? 0 then Throw (OtherExn "std::bad_array_new_length")
  else Ok (mkTS (Owned (zrepeat (nzero N) length)) 0 0 length length None).

(** src/TimeSeries.hpp:86-101: the copy constructor leaves the cache invalid. *)
Definition ts_copy (t : ts) : ts :=
  mkTS (ts_src t) (ts_index t) (ts_start t) (ts_end t) (ts_len t) None.

(** src/TimeSeries.cpp:15-34 and 36-46: copy and move assignment.  Both keep the cache fields of
    the assigned object.  (Self copy assignment of an owning series, which frees its data first, and the
    leak of the old data by move assignment are in SeriesMem.v.) *)
Definition ts_assign (dst src : ts) : ts :=
  mkTS (ts_src src) (ts_index src) (ts_start src) (ts_end src) (ts_len src) (ts_cache dst).

(** Lookup of a dataset buffer. *)
Definition heap_get (h : heap) (b : nat) : outcome (list T) :=
  match nth_error h b with
  | Some (Some l) => Ok l
  | Some None => UB UseAfterFree
  | None => UB OutOfBounds
  end.

(** The window [start, start+len) of an array. *)
Definition window (l : list T) (start len : Z) : outcome (list T) :=
  if len <=? 0 then Ok []
  else if (start <? 0) || (zlen l <? start + len) then UB OutOfBounds
  else Ok (zslice l start len).

(** The values of a series.  Simplification: the code reads [data[start+i]] element by element
    (TimeSeries.cpp:62-68, trillionDTW.cpp); here the window is resolved once per call, so a window
    that lies partly outside its buffer is undefined behaviour even if only its good part
    would have been read. *)
Definition ts_read (h : heap) (t : ts) : outcome (list T) :=
  match ts_src t with
  | View b base => l <- heap_get h b ;; window l (base + ts_start t) (ts_len t)
  | Owned v => window v (ts_start t) (ts_len t)
  | Null => if ts_len t <=? 0 then Ok [] else UB NullDeref
  end.

(** src/TimeSeries.cpp:62-68 [operator[]] (read). *)
Definition ts_get (h : heap) (t : ts) (i : Z) : outcome T :=
  if (i <? 0) || (ts_len t <=? i) then Throw (OnexExn "Data point index is out of range")
  else match ts_src t with
       | View b base => l <- heap_get h b ;; zget l (base + ts_start t + i)
       | Owned v => zget v (ts_start t + i)
       | Null => UB NullDeref
       end.

(** Writing [data[start+i] = v] through a series; the result is the new heap and series. *)
Definition ts_write (h : heap) (t : ts) (i : Z) (v : T) : outcome (heap * ts) :=
  match ts_src t with
  | View b base =>
      l <- heap_get h b ;;
      l <- zset l (base + ts_start t + i) v ;;
      Ok (list_set h b (Some l), t)
  | Owned w =>
      w <- zset w (ts_start t + i) v ;;
      Ok (h, mkTS (Owned w) (ts_index t) (ts_start t) (ts_end t) (ts_len t) (ts_cache t))
  | Null => UB NullDeref
  end.

(** src/TimeSeries.cpp:62-68 [operator[]] used as an lvalue: range-checked, cache untouched. *)
Definition ts_set (h : heap) (t : ts) (i : Z) (v : T) : outcome (heap * ts) :=
  if (i <? 0) || (ts_len t <=? i) then Throw (OnexExn "Data point index is out of range")
  else ts_write h t i v.

(** src/TimeSeries.cpp:80 [keoghCacheValid = false]. *)
Definition ts_invalidate (t : ts) : ts :=
  mkTS (ts_src t) (ts_index t) (ts_start t) (ts_end t) (ts_len t) None.

(** src/TimeSeries.cpp:70-82 [operator+=]. *)
Definition ts_plus_assign (h : heap) (t other : ts) : outcome (heap * ts) :=
  if negb (ts_len other =? ts_len t) then
    Throw (OnexExn "Two time series must have the same length for addition")
  else
    '(h, t) <- for_ 0 (ts_len t) (fun i s =>
        let '(h, t) := s in
        o <- ts_get h other i ;;
        x <- ts_get h t i ;;
        ts_write h t i (nadd N x o)) (h, t) ;;
    Ok (h, ts_invalidate t).

(** src/TimeSeries.cpp:84-119: getKeoghLower and getKeoghUpper (always called together with
    the same band in Distance.cpp:201-202); regenerates and caches the envelope if needed. *)
Definition ts_envelope (h : heap) (t : ts) (band : Z) : outcome (ts * (uarray N * uarray N)) :=
  let regenerate :=
    v <- ts_read h t ;;
    '(l, u) <- generateKeoghLU N v band ;;
    Ok (mkTS (ts_src t) (ts_index t) (ts_start t) (ts_end t) (ts_len t)
             (Some (mkCache band l u)), (l, u))
  in
  match ts_cache t with
  | Some c => if kc_band c =? band then Ok (t, (kc_lower c, kc_upper c)) else regenerate
  | None => regenerate
  end.

(** src/distance/Distance.cpp:196-217 on series with caches; returns the updated first series. *)
Definition keogh_ts (h : heap) (ratio : T) (a b : ts) (dropout : T) : outcome (ts * T) :=
  warpingBand <- calculateWarpingBandSize N ratio (Z.max (ts_len a) (ts_len b)) ;;
  '(a, (l, u)) <- ts_envelope h a warpingBand ;;
  bv <- ts_read h b ;;
  d <- keogh_sum N l u (ts_len a) bv dropout ;;
  Ok (a, d).

(** src/distance/Distance.cpp:219-228 *)
Definition crossKeogh_ts (h : heap) (ratio : T) (a b : ts) (dropout : T) : outcome (ts * ts * T) :=
  '(a, lb) <- keogh_ts h ratio a b dropout ;;
  if nltb N dropout lb then Ok (a, b, ninf N)
  else '(b, lb2) <- keogh_ts h ratio b a dropout ;; Ok (a, b, smax N lb lb2).

(** src/distance/Distance.cpp:230-243 *)
Definition cascade_ts (h : heap) (ratio : T) (a b : ts) (dropout : T) : outcome (ts * ts * T) :=
  '(a, b, lb) <- crossKeogh_ts h ratio a b dropout ;;
  if nltb N dropout lb then Ok (a, b, ninf N)
  else
    av <- ts_read h a ;;
    bv <- ts_read h b ;;
    d <- warpedDistance N ratio av bv dropout ;;
    Ok (a, b, d).

(** A named distance (Distance.cpp:20-29) applied to series; it does not use the caches. *)
Definition dist_ts (k : dist_kind) (h : heap) (ratio : T) (a b : ts) (dropout : T) : outcome T :=
  av <- ts_read h a ;;
  bv <- ts_read h b ;;
  run_dist N k ratio av bv dropout.

(** src/TimeSeries.hpp:199-222 *)
Record candidate : Type := mkCand { cand_data : ts; cand_dist : T }.

(** src/TimeSeries.hpp:204-219; [abs] is taken to be the floating-point overload; [eps] is 1e-12. *)
Definition cand_ltb (eps : T) (x y : candidate) : bool :=
  if nltb N (nabs N (nsub N (cand_dist x) (cand_dist y))) eps then
    if ts_index (cand_data x) =? ts_index (cand_data y) then
      if ts_start (cand_data x) =? ts_start (cand_data y) then
        ts_len (cand_data x) <? ts_len (cand_data y)
      else ts_start (cand_data x) <? ts_start (cand_data y)
    else ts_index (cand_data x) <? ts_index (cand_data y)
  else nltb N (cand_dist x) (cand_dist y).
End TimeSeries.
Arguments View {N}. Arguments Owned {N}. Arguments Null {N}.
Arguments mkCache {N}. Arguments kc_band {N}. Arguments kc_lower {N}. Arguments kc_upper {N}.
Arguments mkTS {N}. Arguments ts_src {N}. Arguments ts_index {N}. Arguments ts_start {N}.
Arguments ts_end {N}. Arguments ts_len {N}. Arguments ts_cache {N}.
Arguments ts_view {N}. Arguments ts_copy {N}. Arguments ts_assign {N}. Arguments ts_invalidate {N}.
Arguments mkCand {N}. Arguments cand_data {N}. Arguments cand_dist {N}.
