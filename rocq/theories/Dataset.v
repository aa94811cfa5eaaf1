(** * Model of src/TimeSeriesSet.{hpp,cpp}. *)
From Coq Require Import ZArith Bool Lia List Ascii String.
From Verif Require Import Outcome Num Lemire Distance TimeSeries Text.
Import ListNotations.
Open Scope Z_scope.

Section Dataset.
Context (N : NumOps) (IO : NumIO N).
Local Notation T := (num N).
Local Notation heap := (heap N).

(** src/TimeSeriesSet.hpp:141-147.  [set_buf = None] models data == nullptr. *)
Record tset : Type := mkSet {
  set_buf : option nat;
  set_len : Z;      (* itemLength *)
  set_count : Z;    (* itemCount *)
  set_path : string;
  set_norm : bool   (* normalized *)
}.

(** Allocation and release of a data buffer (new data_t[n] / delete[]). *)
Definition halloc (h : heap) (l : list T) : heap * nat := (h ++ [Some l], List.length h).
Definition hfree (h : heap) (b : option nat) : heap :=
  match b with Some b => list_set h b None | None => h end.

(** TimeSeriesSet.cpp:32-35; [n] is never 0 here. *)
Definition calcPAALength (srcLength n : Z) : Z := Z.quot (srcLength - 1) n + 1.

(** TimeSeriesSet.cpp:42-51 (and 61-70): the loop of doPAA; state (dest, sum, count).
    [dest] and [source] start at offsets [doff] and [soff] of their arrays. *)
Definition paa_step (source : list T) (soff srcLength n doff : Z) (i : Z)
           (s : list T * T * Z) : outcome (list T * T * Z) :=
  let '(dest, sum, count) := s in
  let count := count + 1 in
  x <- zget source (soff + i) ;;
  let sum := nadd N sum x in
  if (count =? n) || (i =? srcLength - 1) then
    dest <- zset dest (doff + Z.quot i n) (ndiv N sum (nofZ N count)) ;;
    Ok (dest, nzero N, 0)
  else Ok (dest, sum, count).

(** TimeSeriesSet.cpp:37-52 *)
Definition doPAA (source : list T) (soff srcLength n : Z) (dest : list T) (doff : Z)
  : outcome (list T) :=
  '(dest, _, _) <- for_ 0 srcLength (paa_step source soff srcLength n doff) (dest, nzero N, 0) ;;
  Ok dest.

(** TimeSeriesSet.cpp:54-72 [tsPAA] on the values of the source (the result series owns its
    values); a zero block size is an integer division by zero. *)
Definition tsPAA (h : heap) (source : ts N) (n : Z) : outcome (ts N) :=
  if n =? 0 then UB DivZero
  else
    let destLength := calcPAALength (ts_len source) n in
    dest <- ts_new N destLength ;;
    v <- ts_read N h source ;;
    d <- doPAA v 0 (ts_len source) n (zrepeat (nzero N) destLength) 0 ;;
    Ok (mkTS (Owned d) (ts_index dest) (ts_start dest) (ts_end dest) (ts_len dest) None).

(** TimeSeriesSet.cpp:130-145: conversion of a token, turning the exceptions of std::stod into
    OnexException. *)
Definition parse_value (tok : text) : outcome T :=
  match io_stod IO tok with
  | Throw (LogicExn k) =>
      if String.eqb k "std::out_of_range" then Throw (OnexExn "Values are out of range")
      else Throw (OnexExn "Dataset file contains unparsable text")
  | o => o
  end.

(** TimeSeriesSet.cpp:123-147: the columns of one row; state (col, data). *)
Definition load_col (row length startCol : Z) (tok : text) (s : Z * list T)
  : outcome (Z * list T) :=
  let '(col, data) := s in
  if startCol <=? col then
    v <- parse_value tok ;;
    data <- zset data (row * (length - startCol) + (col - startCol)) v ;;
    Ok (col + 1, data)
  else Ok (col + 1, data).

(** TimeSeriesSet.cpp:99-152: one row; state (row, length, data). *)
Definition load_row (maxNumRow startCol : Z) (seps : text) (line : text)
           (s : Z * Z * option (list T)) : outcome (Z * Z * option (list T)) :=
  let '(row, length, data) := s in
  let toks := tokens seps line in
  let n := zlen toks in
  '(length, data) <-
    (if row =? 0 then Ok (n, zrepeat (nzero N) (maxNumRow * n))
     else if negb (length =? n) then
       Throw (OnexExn "File contains time series with inconsistent lengths")
     else match data with Some d => Ok (length, d) | None => UB NullDeref end) ;;
  '(_, data) <- for_each toks (load_col row length startCol) (0, data) ;;
  Ok (row + 1, length, Some data).

(** TimeSeriesSet.cpp:74-165 [loadData] on the contents of an opened file: returns (data,
    itemCount, itemLength).  [data] is None when no row is read (data stays nullptr).  Read errors of
    the stream (lines 154-159) are not modelled.  [separators.c_str()] is assumed not to contain NUL. *)
Definition loadData (contents : text) (maxNumRow startCol : Z) (seps : text)
  : outcome (option (list T) * Z * Z) :=
  let ls := lines contents in
  let maxNumRow := if maxNumRow <=? 0 then zlen ls else Z.min maxNumRow (zlen ls) in
  '(row, length, data) <-
    for_each (firstn (Z.to_nat maxNumRow) ls) (load_row maxNumRow startCol seps) (0, -1, None) ;;
  Ok (data, row, length - startCol).

(** The data array of a set. *)
Definition set_data (h : heap) (s : tset) : outcome (list T) :=
  match set_buf s with
  | Some b => heap_get N h b
  | None => UB NullDeref
  end.

(** TimeSeriesSet.cpp:167-182 [saveData]: the text written. *)
Definition saveData (h : heap) (s : tset) (separator : ascii) : outcome text :=
  for_ 0 (set_count s) (fun i out =>
    out <- for_ 0 (set_len s) (fun j out =>
      d <- set_data h s ;;
      x <- zget d (i * set_len s + j) ;;
      Ok (out ++ io_print IO 6 x ++ [separator])) out ;;
    Ok (out ++ [nl])) [].

(** TimeSeriesSet.cpp:192-207 *)
Definition getTimeSeries (s : tset) (index start end_ : Z) : outcome (ts N) :=
  let src := match set_buf s with
             | Some b => View b (index * set_len s)
             | None => Null
             end in
  if (index <? 0) || (set_count s <=? index) then Throw (OnexExn "Invalid time series index")
  else if (start <? 0) && (end_ <? 0) then
    Ok (mkTS src index 0 (set_len s) (set_len s) None)
  else if (start <? 0) || (end_ <=? start) || (set_len s <? end_) then
    Throw (OnexExn "Invalid starting or ending position of a time series")
  else Ok (mkTS src index start end_ (end_ - start) None).

(** TimeSeriesSet.cpp:244-259: one pair of elements; state (MIN, MAX). *)
Definition minmax_pair (data : list T) (base i : Z) (s : T * T) : outcome (T * T) :=
  let '(mn, mx) := s in
  x <- zget data (base + i) ;;
  y <- zget data (base + (i + 1)) ;;
  let '(x, y) := if nltb N y x then (y, x) else (x, y) in
  let mx := if nltb N mx y then y else mx in
  let mn := if nltb N x mn then x else mn in
  Ok (mn, mx).

(** TimeSeriesSet.cpp:225-261: the scan of one series; state (MIN, MAX).  [length] is the total
    number of values.  The loop [for (; i < itemLength - 1; i += 2)] makes (itemLength - i0)/2
    iterations for itemLength >= 1. *)
Definition minmax_row (data : list T) (length itemLength : Z) (t : Z) (s : T * T) : outcome (T * T) :=
  let '(mn, mx) := s in
  let base := t * itemLength in
  let i0 := if Z.rem length 2 =? 0 then 0 else 1 in
  '(mn, mx) <-
    (if i0 =? 1 then
       x <- zget data base ;;
       let mn := if nltb N x mn then x else mn in
       let mx := if nltb N mx x then x else mx in
       Ok (mn, mx)
     else Ok (mn, mx)) ;;
  for_ 0 ((itemLength - i0) / 2) (fun k => minmax_pair data base (i0 + 2 * k)) (mn, mx).

(** TimeSeriesSet.cpp:271-289: apply [f] to every element. *)
Definition map_data (f : T -> T) (itemCount itemLength : Z) (data : list T) : outcome (list T) :=
  for_ 0 itemCount (fun t data =>
    for_ 0 itemLength (fun i data =>
      x <- zget data (t * itemLength + i) ;;
      zset data (t * itemLength + i) (f x)) data) data.

(** TimeSeriesSet.cpp:209-293 [normalize].  For a negative item length (see loadData) the unsigned
    comparison of line 242 makes the scan leave the buffer. *)
Definition normalize (h : heap) (s : tset) : outcome (heap * tset * (T * T)) :=
  let length := set_len s * set_count s in
  if length =? 0 then Throw (OnexExn "No data to normalize")
  else if set_len s <? 0 then UB OutOfBounds
  else
    match set_buf s with
    | None => UB NullDeref
    | Some b =>
        data <- heap_get N h b ;;
        '(mn, mx) <- for_ 0 (set_count s) (minmax_row data length (set_len s)) (ninf N, nninf N) ;;
        let diff := nsub N mx mn in
        data <- (if neqb N diff (nzero N) then
                   if negb (neqb N mx (nzero N))
                   then map_data (fun _ => nzero N) (set_count s) (set_len s) data
                   else Ok data
                 else map_data (fun x => ndiv N (nsub N x mn) diff) (set_count s) (set_len s) data) ;;
        Ok (list_set h b (Some data),
            mkSet (Some b) (set_len s) (set_count s) (set_path s) true,
            (mn, mx))
    end.

(** TimeSeriesSet.cpp:295-310 [PAA].  The new array starts uninitialised but for a positive item
    length every cell is written (so zeros are used here); for a non-positive item length with a
    positive new length (e.g. 0 and n >= 2) the values stay uninitialised, which is reported as
    undefined behaviour at once although the code only reads them later.  A negative array size throws. *)
Definition PAA (h : heap) (s : tset) (n : Z) : outcome (heap * tset) :=
  if n <=? 0 then Throw (OnexExn "Block size must be positive")
  else
    let newLen := calcPAALength (set_len s) n in
    let size := set_count s * newLen in
    if size <? 0 then Throw (OtherExn "std::bad_array_new_length")
    else if (set_len s <=? 0) && (0 <? size) then UB Uninit
    else
      new_data <- for_ 0 (set_count s) (fun t new_data =>
          if set_len s <=? 0 then Ok new_data
          else data <- set_data h s ;;
               doPAA data (t * set_len s) (set_len s) n new_data (t * newLen))
        (zrepeat (nzero N) size) ;;
      let '(h, b) := halloc (hfree h (set_buf s)) new_data in
      Ok (h, mkSet (Some b) newLen (set_count s) (set_path s) (set_norm s)).

(** TimeSeriesSet.cpp:312-315 *)
Definition isLoaded (s : tset) : bool := match set_buf s with Some _ => true | None => false end.

(** TimeSeriesSet.cpp:317-322 *)
Definition distanceBetween (h : heap) (ratio : T) (s : tset) (idx start length : Z) (other : ts N)
           (distance_name : string) : outcome T :=
  k <- getDistance distance_name ;;
  t <- getTimeSeries s idx start (start + length) ;;
  dist_ts N k h ratio t other (ninf N).
End Dataset.
Arguments mkSet _ _ _ _ _ : assert.
