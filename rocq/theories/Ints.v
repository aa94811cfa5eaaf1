(** * The operations with their 32-bit [int] arithmetic.
    The other model files compute with unbounded integers.  Here loading, saving, normalizing, averaging,
    grouping, matching and the group files are modelled once more with every [int] addition, subtraction and multiplication that
    depends on the sizes checked: a result that does not fit an [int] is signed overflow, which is
    undefined behaviour ([UB IntOverflow]).  Loop counters that stay below a value that is itself an [int]
    cannot overflow and are not checked.  Arithmetic in unsigned int or size_t wraps and is no overflow;
    products of two ints are [int] products even if an unsigned value is added afterwards. *)
From Coq Require Import ZArith Bool Lia List Ascii String.
From Verif Require Import Outcome Num Deque Lemire Distance TimeSeries Text Dataset Groups Api.
Import ListNotations.
Open Scope Z_scope.

(** The value of an [int] expression whose mathematical value is [z]. *)
Definition chk (z : Z) : outcome Z :=
  if (int_min <=? z) && (z <=? int_max) then Ok z else UB IntOverflow.

Section Ints.
Context (N : NumOps) (IO : NumIO N) (writable : string -> bool).
Local Notation T := (num N).
Local Notation heap := (heap N).
Local Notation ts := (ts N).

(** ** Loading *)

(** TimeSeriesSet.cpp:123-147, as [load_col]: the index of line 132 and [col++]. *)
Definition load_col32 (row length startCol : Z) (tok : text) (s : Z * list T)
  : outcome (Z * list T) :=
  let '(col, data) := s in
  if startCol <=? col then
    v <- parse_value N IO tok ;;
    w <- chk (length - startCol) ;;
    p <- chk (row * w) ;;
    c <- chk (col - startCol) ;;
    i <- chk (p + c) ;;
    data <- zset data i v ;;
    col <- chk (col + 1) ;;
    Ok (col, data)
  else
    col <- chk (col + 1) ;;
    Ok (col, data).

(** TimeSeriesSet.cpp:99-152, as [load_row]: the size of the array, line 112.  The number of tokens is
    converted from ptrdiff_t to int at line 111; a number that does not fit is not an overflow but is reported as
    one. *)
Definition load_row32 (maxNumRow startCol : Z) (seps : text) (line : text)
           (s : Z * Z * option (list T)) : outcome (Z * Z * option (list T)) :=
  let '(row, length, data) := s in
  let toks := tokens seps line in
  '(length, data) <-
    (if row =? 0 then
       n <- chk (zlen toks) ;;
       size <- chk (maxNumRow * n) ;;
       Ok (n, zrepeat (nzero N) size)
     else if negb (length =? zlen toks) then
       Throw (OnexExn "File contains time series with inconsistent lengths")
     else match data with Some d => Ok (length, d) | None => UB NullDeref end) ;;
  '(_, data) <- for_each toks (load_col32 row length startCol) (0, data) ;;
  Ok (row + 1, length, Some data).

(** TimeSeriesSet.cpp:74-165, as [loadData]: the line counter of countNumberOfLines
    (TimeSeriesSet.cpp:22-30) and the item length, line 161. *)
Definition loadData32 (contents : text) (maxNumRow startCol : Z) (seps : text)
  : outcome (option (list T) * Z * Z) :=
  let ls := lines contents in
  n <- chk (zlen ls) ;;
  let maxNumRow := if maxNumRow <=? 0 then n else Z.min maxNumRow n in
  '(row, length, data) <-
    for_each (firstn (Z.to_nat maxNumRow) ls) (load_row32 maxNumRow startCol seps) (0, -1, None) ;;
  itemLength <- chk (length - startCol) ;;
  Ok (data, row, itemLength).

(** ** Saving, normalizing and averaging *)

(** TimeSeriesSet.cpp:167-182, as [saveData]: the index of line 177. *)
Definition saveData32 (h : heap) (s : tset) (separator : ascii) : outcome text :=
  for_ 0 (set_count s) (fun i out =>
    out <- for_ 0 (set_len s) (fun j out =>
      d <- set_data N h s ;;
      p <- chk (i * set_len s) ;;
      p <- chk (p + j) ;;
      x <- zget d p ;;
      Ok (out ++ io_print IO 6 x ++ [separator])) out ;;
    Ok (out ++ [nl])) [].

(** TimeSeriesSet.cpp:209-293, as [normalize]: the number of values (line 211) and the offsets
    [ts * itemLength] of lines 232-287; [i] is unsigned. *)
Definition normalize32 (h : heap) (s : tset) : outcome (heap * tset * (T * T)) :=
  length <- chk (set_len s * set_count s) ;;
  if length =? 0 then Throw (OnexExn "No data to normalize")
  else if set_len s <? 0 then UB OutOfBounds
  else
    match set_buf s with
    | None => UB NullDeref
    | Some b =>
        data <- heap_get N h b ;;
        '(mn, mx) <- for_ 0 (set_count s) (fun t st =>
            _ <- chk (t * set_len s) ;;
            minmax_row N data length (set_len s) t st) (ninf N, nninf N) ;;
        let diff := nsub N mx mn in
        let map32 f data :=
          for_ 0 (set_count s) (fun t data =>
            for_ 0 (set_len s) (fun i data =>
              p <- chk (t * set_len s) ;;
              x <- zget data (p + i) ;;
              zset data (p + i) (f x)) data) data in
        data <- (if neqb N diff (nzero N) then
                   if negb (neqb N mx (nzero N))
                   then map32 (fun _ => nzero N) data
                   else Ok data
                 else map32 (fun x => ndiv N (nsub N x mn) diff) data) ;;
        Ok (list_set h b (Some data),
            mkSet (Some b) (set_len s) (set_count s) (set_path s) true,
            (mn, mx))
    end.

(** TimeSeriesSet.cpp:295-310, as [PAA]: the new length (line 34), the size of the new array (line 301) and the
    offsets of line 304.  The counters of doPAA stay below the item length. *)
Definition PAA32 (h : heap) (s : tset) (n : Z) : outcome (heap * tset) :=
  if n <=? 0 then Throw (OnexExn "Block size must be positive")
  else
    l1 <- chk (set_len s - 1) ;;
    newLen <- chk (Z.quot l1 n + 1) ;;
    size <- chk (set_count s * newLen) ;;
    if size <? 0 then Throw (OtherExn "std::bad_array_new_length")
    else if (set_len s <=? 0) && (0 <? size) then UB Uninit
    else
      new_data <- for_ 0 (set_count s) (fun t new_data =>
          p <- chk (t * set_len s) ;;
          q <- chk (t * newLen) ;;
          if set_len s <=? 0 then Ok new_data
          else data <- set_data N h s ;;
               doPAA N data p (set_len s) n new_data q)
        (zrepeat (nzero N) size) ;;
      let '(h, b) := halloc N (hfree N h (set_buf s)) new_data in
      Ok (h, mkSet (Some b) newLen (set_count s) (set_path s) (set_norm s)).

(** ** Grouping *)

(** LocalLengthGroupSpace.cpp:24-29, as [new_lspace]. *)
Definition new_lspace32 (s : tset) (length : Z) : outcome (lspace N) :=
  d <- chk (set_len s - length) ;;
  sub <- chk (d + 1) ;;
  n <- chk (set_count s * sub) ;;
  if n <? 0 then Throw (LogicExn "std::length_error")
  else Ok (mkLS N length sub [] (zrepeat mem_init n)).

(** LocalLengthGroupSpace.cpp:66-71, as [log_progress]: [counter*100] of line 69, evaluated when a
    message is printed. *)
Definition log_progress32 (doLog : bool) (counter total : Z) : outcome unit :=
  if doLog then
    if Z.quot total 5 =? 0 then UB DivZero
    else if Z.rem counter (Z.quot total 5) =? 0 then _ <- chk (counter * 100) ;; Ok tt
    else Ok tt
  else Ok tt.

(** LocalLengthGroupSpace.cpp:73-97, as [insert_one]: [start + length] (line 73, and Group.cpp:28),
    [index * itemLength] (TimeSeriesSet.cpp:200-206), and the place in the member map
    (Group.cpp:21).  The member count of the group (Group.cpp:20) is at most [counter]. *)
Definition insert_one32 (k : dist_kind) (h : heap) (ratio : T) (s : tset) (threshold : T)
           (start idx : Z) (ls : lspace N) : outcome (lspace N) :=
  _ <- chk (start + ls_length N ls) ;;
  _ <- chk (idx * set_len s) ;;
  r <- insert_one N k h ratio s threshold start idx ls ;;
  p <- chk (idx * ls_sub N ls) ;;
  _ <- chk (p + start) ;;
  Ok r.

(** LocalLengthGroupSpace.cpp:48-102, as [generateGroups]: the number of subsequences (line 59)
    and the counter (line 65). *)
Definition generateGroups32 (k : dist_kind) (h : heap) (ratio : T) (s : tset) (threshold : T)
           (doLog : bool) (ls : lspace N) : outcome (lspace N) :=
  total <- chk (ls_sub N ls * set_count s) ;;
  '(ls, _) <- for_ 0 (ls_sub N ls) (fun start st =>
      for_ 0 (set_count s) (fun idx st =>
        let '(ls, counter) := st in
        counter <- chk (counter + 1) ;;
        _ <- log_progress32 doLog counter total ;;
        ls <- insert_one32 k h ratio s threshold start idx ls ;;
        Ok (ls, counter)) st) (ls, 0) ;;
  Ok ls.

(** GlobalGroupSpace.cpp:43-58, as [global_group]: the number of lengths (line 47) and the running number of
    groups (line 55). *)
Definition global_group32 (h : heap) (ratio : T) (s : tset) (name : string) (threshold : T)
           (clock : Z -> bool) : outcome (gspace N * Z) :=
  k <- getDistance name ;;
  n <- chk (set_len s + 1) ;;
  spaces <- resize_null N n ;;
  '(spaces, total) <- for_ 2 (zlen spaces) (fun i st =>
      let '(spaces, total) := st in
      ls <- new_lspace32 s i ;;
      ls <- generateGroups32 k h ratio s threshold (clock i) ls ;;
      spaces <- zset spaces i (Some ls) ;;
      total <- chk (total + getNumberOfGroups N ls) ;;
      Ok (spaces, total)) (spaces, 0) ;;
  Ok (mkGS N spaces name (Some k), total).

(** ** Distances *)

(** Distance.cpp:132-136, as [calculateWarpingBandSize]. *)
Definition band32 (ratio : T) (length : Z) : outcome Z :=
  bandSize <- floor_int N (nmul N (nofZ N length) ratio) ;;
  l1 <- chk (length - 1) ;;
  Ok (Z.min bandSize l1).

(** Distance.cpp:46-49, as [euc_norm_dtw].  The factors of lines 43 and 53 are doubles: [dropout * 2 * length] multiplies
    from the left. *)
Definition euc_norm_dtw32 (total : T) (maxlen : Z) : outcome T :=
  d <- chk (2 * maxlen) ;;
  Ok (ndiv N (nsqrt N total) (nofZ N d)).

(** Distance.cpp:94-114, as [dtw_cell]: lines 100 and 102; the second comparison of line 102 is evaluated only if the first
    holds.  [i - r] and [i + r] of line 100 have been computed in line 94. *)
Definition dtw_cell32 (a b : list T) (r i j : Z) (s : matrix N * T) : outcome (matrix N * T) :=
  let '(cost, bestSoFar) := s in
  if j =? 0 then
    c <- mget N cost i j ;;
    Ok (cost, smin N bestSoFar c)
  else
    ij1 <- (if (i - r <=? j - 1) && (j - 1 <=? i + r) then mget N cost i (j - 1) else Ok (ninf N)) ;;
    i1j1 <- mget N cost (i - 1) (j - 1) ;;
    i1j <- (lo <- chk (j - r) ;;
            if lo <=? i - 1 then
              hi <- chk (j + r) ;;
              if i - 1 <=? hi then mget N cost (i - 1) j else Ok (ninf N)
            else Ok (ninf N)) ;;
    minPrev <- mget N cost (i - 1) j ;;
    minPrev <- (if nltb N i1j1 ij1 && nltb N i1j1 i1j then mget N cost (i - 1) (j - 1)
                else if nltb N ij1 i1j then mget N cost i (j - 1)
                else Ok minPrev) ;;
    ai <- ts_at N a i ;;
    bj <- ts_at N b j ;;
    let v := nadd N minPrev (sqd N ai bj) in
    cost <- mset N cost i j v ;;
    Ok (cost, smin N bestSoFar v).

(** Distance.cpp:91-121, as [dtw_row]: the bounds of line 94. *)
Definition dtw_row32 (a b : list T) (r : Z) (idropout : T) (i : Z) (s : matrix N * bool)
  : outcome (ctl (matrix N * bool)) :=
  let '(cost, dropped) := s in
  lo <- chk (i - r) ;;
  hi <- chk (i + r) ;;
  '(cost, bestSoFar) <-
     for_ (Z.max lo 0) (Z.min hi (zlen b - 1) + 1) (dtw_cell32 a b r i) (cost, ninf N) ;;
  if nltb N idropout bestSoFar then Ok (Break (cost, true)) else Ok (Next (cost, dropped)).

(** Distance.cpp:56-124, as [warpedDistance]: the bounds of lines 78 and 84. *)
Definition warpedDistance32 (ratio : T) (a b : list T) (dropout : T) : outcome T :=
  let m := zlen a in
  let n := zlen b in
  r <- band32 ratio (Z.max m n) ;;
  let idropout := euc_inorm_dtw N dropout (Z.max m n) in
  if (m =? 1) && (n =? 1) then
    a0 <- ts_at N a 0 ;;
    b0 <- ts_at N b 0 ;;
    euc_norm_dtw32 (sqd N a0 b0) (Z.max m n)
  else
    let cost := zrepeat (zrepeat (nzero N) n) m in
    cost <- mset N cost (m - 1) (n - 1) (ninf N) ;;
    a0 <- ts_at N a 0 ;;
    b0 <- ts_at N b 0 ;;
    cost <- mset N cost 0 0 (sqd N a0 b0) ;;
    r2 <- chk (2 * r) ;;
    r2 <- chk (r2 + 1) ;;
    cost <- for_ 1 (Z.min r2 m) (dtw_col N a b) cost ;;
    cost <- for_ 1 (Z.min r2 n) (dtw_row0 N a b) cost ;;
    '(cost, dropped) <- forb 1 m (dtw_row32 a b r idropout) (cost, false) ;;
    result <- (if dropped : bool then Ok (ninf N) else mget N cost (m - 1) (n - 1)) ;;
    euc_norm_dtw32 result (Z.max m n).

(** trillionDTW.cpp:30-31 and 54-55: the place of a value of the envelope, [i-r-1]. *)
Definition place32 (i r : Z) : outcome Z := d <- chk (i - r) ;; chk (d - 1).

(** trillionDTW.cpp:27-51, as [lem_body1]: [2*r + 1 + front] of lines 47 and 49.  The counters of the deque (deque.cpp) are between
    -1 and its capacity. *)
Definition lem_body1_32 (t : list T) (r : Z) (i : Z) (s : lem_state N) : outcome (lem_state N) :=
  s <- (if r <? i then k <- place32 i r ;; emit N t k s else Ok s) ;;
  ti <- zget t i ;;
  tp <- zget t (i - 1) ;;
  s <- (if nltb N tp ti
        then du <- dq_pop_back (lem_du N s) ;;
             du <- pop_while N t ti true du ;;
             Ok (mkLem N (lem_l N s) (lem_u N s) du (lem_dl N s))
        else dl <- dq_pop_back (lem_dl N s) ;;
             dl <- pop_while N t ti false dl ;;
             Ok (mkLem N (lem_l N s) (lem_u N s) (lem_du N s) dl)) ;;
  du <- dq_push_back (lem_du N s) i ;;
  dl <- dq_push_back (lem_dl N s) i ;;
  fu <- dq_front du ;;
  w <- chk (2 * r) ;;
  w <- chk (w + 1) ;;
  wu <- chk (w + fu) ;;
  if i =? wu then
    Ok (mkLem N (lem_l N s) (lem_u N s) (dq_pop_front du) dl)
  else
    fl <- dq_front dl ;;
    wl <- chk (w + fl) ;;
    if i =? wl then
      Ok (mkLem N (lem_l N s) (lem_u N s) du (dq_pop_front dl))
    else Ok (mkLem N (lem_l N s) (lem_u N s) du dl).

(** trillionDTW.cpp:52-63, as [lem_body2]. *)
Definition lem_body2_32 (t : list T) (r : Z) (i : Z) (s : lem_state N) : outcome (lem_state N) :=
  k <- place32 i r ;;
  s <- emit N t k s ;;
  fu <- dq_front (lem_du N s) ;;
  w <- chk (2 * r) ;;
  w <- chk (w + 1) ;;
  du_ <- chk (i - fu) ;;
  let du := if w <=? du_ then dq_pop_front (lem_du N s) else lem_du N s in
  fl <- dq_front (lem_dl N s) ;;
  dl_ <- chk (i - fl) ;;
  let dl := if w <=? dl_ then dq_pop_front (lem_dl N s) else lem_dl N s in
  Ok (mkLem N (lem_l N s) (lem_u N s) du dl).

(** trillionDTW.cpp:19-64, as [lower_upper_lemire]: the capacity of the deques and the bound of the second loop. *)
Definition lower_upper_lemire32 (t : list T) (r : Z) : outcome (uarray N * uarray N) :=
  let len := zlen t in
  cap <- chk (2 * r) ;;
  cap <- chk (cap + 2) ;;
  du <- dq_push_back (dq_new cap) 0 ;;
  dl <- dq_push_back (dq_new cap) 0 ;;
  let s := mkLem N (zrepeat None len) (zrepeat None len) du dl in
  s <- for_ 1 len (lem_body1_32 t r) s ;;
  hi <- chk (len + r) ;;
  hi <- chk (hi + 1) ;;
  s <- for_ len hi (lem_body2_32 t r) s ;;
  Ok (lem_l N s, lem_u N s).

(** TimeSeries.cpp:84-119, as [ts_envelope]. *)
Definition ts_envelope32 (h : heap) (t : ts) (band : Z) : outcome (ts * (uarray N * uarray N)) :=
  let regenerate :=
    v <- ts_read N h t ;;
    '(l, u) <- lower_upper_lemire32 v (Z.min band (zlen v - 1)) ;;
    Ok (mkTS (ts_src t) (ts_index t) (ts_start t) (ts_end t) (ts_len t)
             (Some (mkCache band l u)), (l, u))
  in
  match ts_cache t with
  | Some c => if kc_band c =? band then Ok (t, (kc_lower c, kc_upper c)) else regenerate
  | None => regenerate
  end.

(** Distance.cpp:203-216, as [keogh_sum]. *)
Definition keogh_sum32 (lower upper : uarray N) (la : Z) (b : list T) (dropout : T) : outcome T :=
  let len := Z.min la (zlen b) in
  let maxlen := Z.max la (zlen b) in
  let x := nmul N (nmul N dropout (nofZ N 2)) (nofZ N maxlen) in
  let idropout := nmul N x x in
  lb <- forb 0 len (keogh_step N lower upper b idropout) (nzero N) ;;
  euc_norm_dtw32 lb maxlen.

(** Distance.cpp:196-217, as [keogh_ts]. *)
Definition keogh_ts32 (h : heap) (ratio : T) (a b : ts) (dropout : T) : outcome (ts * T) :=
  warpingBand <- band32 ratio (Z.max (ts_len a) (ts_len b)) ;;
  '(a, (l, u)) <- ts_envelope32 h a warpingBand ;;
  bv <- ts_read N h b ;;
  d <- keogh_sum32 l u (ts_len a) bv dropout ;;
  Ok (a, d).

(** Distance.cpp:219-228, as [crossKeogh_ts]. *)
Definition crossKeogh_ts32 (h : heap) (ratio : T) (a b : ts) (dropout : T) : outcome (ts * ts * T) :=
  '(a, lb) <- keogh_ts32 h ratio a b dropout ;;
  if nltb N dropout lb then Ok (a, b, ninf N)
  else '(b, lb2) <- keogh_ts32 h ratio b a dropout ;; Ok (a, b, smax N lb lb2).

(** Distance.cpp:230-243, as [cascade_ts]. *)
Definition cascade_ts32 (h : heap) (ratio : T) (a b : ts) (dropout : T) : outcome (ts * ts * T) :=
  '(a, b, lb) <- crossKeogh_ts32 h ratio a b dropout ;;
  if nltb N dropout lb then Ok (a, b, ninf N)
  else
    av <- ts_read N h a ;;
    bv <- ts_read N h b ;;
    d <- warpedDistance32 ratio av bv dropout ;;
    Ok (a, b, d).

(** ** Matching *)

(** TimeSeriesSet.cpp:192-207 and TimeSeries.hpp:50, as [getTimeSeries]: the offset of the series and its length. *)
Definition getTimeSeries32 (s : tset) (index start end_ : Z) : outcome ts :=
  t <- getTimeSeries N s index start end_ ;;
  _ <- chk (index * set_len s) ;;
  _ <- chk (ts_end t - ts_start t) ;;
  Ok t.

(** Group.cpp:48 and 62: the member at [c], which ends at [start + memberLength]. *)
Definition member32 (s : tset) (g : group N) (c : coord) : outcome ts :=
  e <- chk (snd c + g_length N g) ;;
  getTimeSeries32 s (fst c) (snd c) e.

(** Group.cpp:58 and 97, as [prev_of]. *)
Definition prev_of32 (m : list membership) (sub : Z) (c : coord) : outcome coord :=
  p <- chk (fst c * sub) ;;
  p <- chk (p + snd c) ;;
  e <- zget m p ;;
  Ok (mem_prev e).

(** Group.cpp:44-59, as [group_match_body]. *)
Definition group_match_body32 (h : heap) (ratio : T) (s : tset) (m : list membership) (g : group N)
           (st : match_state N) : outcome (match_state N) :=
  let '(cur, bestDist, bestMember, query) := st in
  t <- member32 s g cur ;;
  '(query, _, d) <- cascade_ts32 h ratio query t bestDist ;;
  let '(bestDist, bestMember) :=
    if nltb N d bestDist then (d, cur) else (bestDist, bestMember) in
  cur <- prev_of32 m (g_sub N g) cur ;;
  Ok (cur, bestDist, bestMember, query).

(** Group.cpp:37-67, as [group_getBestMatch]. *)
Definition group_getBestMatch32 (h : heap) (ratio : T) (s : tset) (m : list membership) (g : group N)
           (query : ts) : outcome (candidate N) :=
  '(_, bestDist, bestMember, _) <-
    while_ (walk_fuel m) (fun st => let '(cur, _, _, _) := st in Ok (negb (fst cur =? -1)))
      (group_match_body32 h ratio s m g) (g_last N g, ninf N, (0, 0), query) ;;
  t <- member32 s g bestMember ;;
  Ok (mkCand (ts_copy t) bestDist).

(** LocalLengthGroupSpace.cpp:157-163, as [best_group_step]. *)
Definition best_group_step32 (h : heap) (ratio : T) (i : Z) (st : bg_state N) : outcome (bg_state N) :=
  let '(groups, query, bestDist, bestGroup) := st in
  g <- zget groups i ;;
  '(c, query, d) <- cascade_ts32 h ratio (g_centroid N g) query bestDist ;;
  groups <- zset groups i (set_centroid_ts N g c) ;;
  Ok (if nltb N d bestDist then (groups, query, d, Some i) else (groups, query, bestDist, bestGroup)).

(** LocalLengthGroupSpace.cpp:151-166, as [getBestGroup]. *)
Definition getBestGroup32 (h : heap) (ratio : T) (ls : lspace N) (query : ts) (dropout : T)
  : outcome (lspace N * ts * option Z * T) :=
  '(groups, query, bestDist, bestGroup) <-
    for_ 0 (zlen (ls_groups N ls)) (best_group_step32 h ratio) (ls_groups N ls, query, dropout, None) ;;
  Ok (mkLS N (ls_length N ls) (ls_sub N ls) groups (ls_map N ls), query, bestGroup, bestDist).

(** GlobalGroupSpace.cpp:116-153, as [traverse_body] and [generateTraverseOrder]: lines 119 and 120, 131 and 133, 144 and 146. *)
Definition traverse_body32 (ratio : T) (queryLength totalLength : Z) (st : to_state)
  : outcome to_state :=
  let '(order, low, high, lowStop, highStop) := st in
  let lowStop := lowStop || (low <? 2) in
  let highStop := highStop || (totalLength <? high) in
  '(order, low, lowStop) <-
    (if negb lowStop then
       r <- band32 ratio queryLength ;;
       x <- chk (low + r) ;;
       if queryLength <=? x then low' <- chk (low - 1) ;; Ok (order ++ [low], low', lowStop)
       else Ok (order, low, true)
     else Ok (order, low, lowStop)) ;;
  '(order, high, highStop) <-
    (if negb highStop then
       r <- band32 ratio high ;;
       x <- chk (queryLength + r) ;;
       if high <=? x then high' <- chk (high + 1) ;; Ok (order ++ [high], high', highStop)
       else Ok (order, high, true)
     else Ok (order, high, highStop)) ;;
  Ok (order, low, high, lowStop, highStop).
Definition generateTraverseOrder32 (ratio : T) (queryLength totalLength : Z) : outcome (list Z) :=
  low <- chk (queryLength - 1) ;;
  high <- chk (queryLength + 1) ;;
  '(order, _, _, _, _) <-
    while_ (traverse_fuel queryLength totalLength)
      (fun st : to_state => let '(_, _, _, ls, hs) := st in Ok (negb (ls && hs)))
      (traverse_body32 ratio queryLength totalLength)
      ([queryLength], low, high, false, false) ;;
  Ok order.

(** GlobalGroupSpace.cpp:69-78, as [global_match_step]. *)
Definition global_match_step32 (h : heap) (ratio : T) (i : Z) (st : gm_state N) : outcome (gm_state N) :=
  let '(spaces, query, bestDist, bestGroup) := st in
  o <- zget spaces i ;;
  match o with
  | None => UB NullDeref
  | Some ls =>
      '(ls, query, gi, d) <- getBestGroup32 h ratio ls query bestDist ;;
      spaces <- zset spaces i (Some ls) ;;
      Ok (if nltb N d bestDist
          then (spaces, query, d, match gi with Some g => Some (i, g) | None => None end)
          else (spaces, query, bestDist, bestGroup))
  end.

(** GlobalGroupSpace.cpp:60-80, as [global_getBestMatch].  [size() - 1] is a size_t. *)
Definition global_getBestMatch32 (h : heap) (ratio : T) (s : tset) (gs : gspace N) (query : ts)
  : outcome (gspace N * candidate N) :=
  if ts_len query <=? 1 then Throw (OnexExn "Length of query must be larger than 1")
  else
    order <- generateTraverseOrder32 ratio (ts_len query) (zlen (gs_spaces N gs) - 1) ;;
    '(spaces, query, bestDist, bestGroup) <-
      for_each order (global_match_step32 h ratio) (gs_spaces N gs, query, ninf N, None) ;;
    match bestGroup with
    | None => UB NullDeref
    | Some (l, gi) =>
        o <- zget spaces l ;;
        match o with
        | None => UB NullDeref
        | Some ls =>
            g <- zget (ls_groups N ls) gi ;;
            c <- group_getBestMatch32 h ratio s (ls_map N ls) g query ;;
            Ok (mkGS N spaces (gs_name N gs) (gs_kind N gs), c)
        end
    end.

(** ** Group files *)

(** Group.cpp:85-101, as [saveGroup]. *)
Definition saveGroup32 (h : heap) (m : list membership) (g : group N) : outcome text :=
  c <- printData N IO h (g_centroid N g) ;;
  let out := c ++ [nl] ++ print_Z (g_count N g) ++ [sp] in
  '(_, out) <- while_ (walk_fuel m) (fun st : coord * text => Ok (negb (fst (fst st) =? -1)))
    (fun st : coord * text =>
       let '(cur, out) := st in
       let out := out ++ print_Z (fst cur) ++ [sp] ++ print_Z (snd cur) ++ [sp] in
       cur <- prev_of32 m (g_sub N g) cur ;;
       Ok (cur, out)) (g_last N g, out) ;;
  Ok (out ++ [nl]).

(** LocalLengthGroupSpace.cpp:117-135, as [local_saveGroups]. *)
Definition local_saveGroups32 (h : heap) (ls : lspace N) (groupSizeOnly : bool) : outcome text :=
  let out := print_Z (zlen (ls_groups N ls)) ++ [nl] in
  if groupSizeOnly then
    Ok (out ++ flat_map (fun g => print_Z (g_count N g) ++ [sp]) (ls_groups N ls) ++ [nl])
  else
    for_each (ls_groups N ls) (fun g out => t <- saveGroup32 h (ls_map N ls) g ;; Ok (out ++ t)) out.

(** GlobalGroupSpace.cpp:87-95, as [global_saveGroups]. *)
Definition global_saveGroups32 (h : heap) (gs : gspace N) (groupSizeOnly : bool) : outcome text :=
  let out := print_Z 2 ++ [sp] ++ print_Z (zlen (gs_spaces N gs)) ++ [nl] ++
             T_ (gs_name N gs) ++ [nl] in
  for_ 2 (zlen (gs_spaces N gs)) (fun i out =>
    o <- zget (gs_spaces N gs) i ;;
    match o with
    | None => UB NullDeref
    | Some ls => t <- local_saveGroups32 h ls groupSizeOnly ;; Ok (out ++ t)
    end) out.

(** Group.cpp:18-24, as [addMember]: the place in the member map.  The number of members read is an [int], so the
    member count does not overflow. *)
Definition addMember32 (m : list membership) (g : group N) (tsIndex tsStart : Z)
  : outcome (list membership * group N) :=
  p <- chk (tsIndex * g_sub N g) ;;
  _ <- chk (p + tsStart) ;;
  addMember N m g tsIndex tsStart.

(** Group.cpp:103-118, as [loadGroup]. *)
Definition loadGroup32 (fin : istream) (m : list membership) (g : group N)
  : outcome (istream * list membership * group N) :=
  c0 <- ts_new N (g_length N g) ;;
  '(fin, v) <- for_ 0 (g_length N g) (fun i st =>
      let '(fin, v) := st in
      let '(fin, x) := extract (io_conv IO) fin in
      match x with
      | Some x => v <- zset v i x ;; Ok (fin, v)
      | None => Ok (fin, v)
      end) (fin, zrepeat (nzero N) (g_length N g)) ;;
  let c := mkTS (Owned v) (ts_index c0) (ts_start c0) (ts_end c0) (ts_len c0) None in
  let g := set_centroid_ts N g (ts_assign (g_centroid N g) c) in
  let '(fin, cnt) := extract conv_int fin in
  cnt <- init cnt ;;
  '(fin, m, g, _) <- for_ 0 cnt (fun _ st =>
      let '(fin, m, g, (index, start)) := st in
      let '(fin, i1) := extract conv_int fin in
      let index := match i1 with Some _ => i1 | None => index end in
      let '(fin, i2) := extract conv_int fin in
      let start := match i2 with Some _ => i2 | None => start end in
      idx <- init index ;;
      st_ <- init start ;;
      '(m, g) <- addMember32 m g idx st_ ;;
      Ok (fin, m, g, (index, start))) (fin, m, g, (None, None)) ;;
  Ok (fin, m, g).

(** LocalLengthGroupSpace.cpp:137-149, as [local_loadGroups]. *)
Definition local_loadGroups32 (fin : istream) (ls : lspace N) : outcome (istream * lspace N * Z) :=
  let '(fin, n) := extract conv_int fin in
  n <- init n ;;
  if n <? 0 then NoFuel
  else
    '(fin, m, groups) <- for_ 0 n (fun i st =>
        let '(fin, m, groups) := st in
        g <- new_group N i (ls_length N ls) (ls_sub N ls) ;;
        '(fin, m, g) <- loadGroup32 fin m g ;;
        Ok (fin, m, groups ++ [g])) (fin, ls_map N ls, []) ;;
    Ok (fin, mkLS N (ls_length N ls) (ls_sub N ls) groups m, n).

(** GlobalGroupSpace.cpp:97-114, as [global_loadGroups]: the number of lengths (line 107), the sizes of a length
    ([new_lspace32]) and the running number of groups (line 110). *)
Definition global_loadGroups32 (s : tset) (fin : istream) : outcome (gspace N * (Z + exn)) :=
  let '(fin, lenFrom) := extract conv_int fin in
  let '(fin, lenTo) := extract conv_int fin in
  let '(fin, dist) := extract conv_word fin in
  let name := match dist with Some w => string_of_list_ascii w | None => EmptyString end in
  match getDistance name with
  | Throw e => Ok (mkGS N [] name None, inr e)
  | UB u => UB u
  | NoFuel => NoFuel
  | Ok k =>
      nsp <- chk (set_len s + 1) ;;
      match resize_null N nsp with
      | Throw e => Ok (mkGS N [] name (Some k), inr e)
      | UB u => UB u
      | NoFuel => NoFuel
      | Ok spaces =>
          lenFrom <- init lenFrom ;;
          lenTo <- init lenTo ;;
          let u z := if z <? 0 then z + 4294967296 else z in
          if int_max <? u lenFrom then
            if u lenFrom <? u lenTo then UB OutOfBounds
            else Ok (mkGS N spaces name (Some k), inl 0)
          else
            let hi := if int_max <? u lenTo then zlen spaces + 1 else lenTo in
            '(fin, spaces, r) <- forb lenFrom hi (fun i st =>
                let '(fin, spaces, r) := st in
                c <- catch (gel <- new_lspace32 s i ;; local_loadGroups32 fin gel) ;;
                match c, r with
                | inr e, _ => Ok (Break (fin, spaces, inr e))
                | inl _, inr e => Ok (Break (fin, spaces, inr e))
                | inl (fin, gel, n), inl total =>
                    spaces <- zset spaces i (Some gel) ;;
                    total <- chk (total + n) ;;
                    Ok (Next (fin, spaces, inl total))
                end) (fin, spaces, inl 0 : Z + exn) ;;
            Ok (mkGS N spaces name (Some k), r)
      end
  end.

(** ** The operations of the API: OnexAPI.cpp:17-55, 111-133 and 140-154, as in Api.v with the checked
    functions above.  The other operations are those of Api.v: their only arithmetic is the number of datasets. *)
Definition api_load32 (s : st N) (path : string) (maxNumRow startCol : Z) (seps : text) : res N :=
  match st_files N s path with
  | None => Exn N s (OnexExn ("Cannot open " ++ path)%string)
  | Some contents =>
      lift N s (loadData32 contents maxNumRow startCol seps) (fun '(data, count, len) =>
        let '(h, b) := match data with
                       | Some l => let '(h, b) := halloc N (st_heap N s) l in (h, Some b)
                       | None => (st_heap N s, None)
                       end in
        let d := mkDS N (mkSet b len count path false) None None in
        let n := first_free N (st_sets N s) in
        let sets := if (n <? List.length (st_sets N s))%nat then list_set (st_sets N s) n (Some d)
                    else st_sets N s ++ [Some d] in
        let s' := with_count N (with_sets N (with_heap N s h) sets) (st_count N s + 1) in
        lift N s' (getDatasetInfo N s' (Z.of_nat n)) (fun i => Done N s' (VInfo N i)))
  end.

Definition api_save32 (s : st N) (i : Z) (path : string) (separator : ascii) : res N :=
  lift N s (checkDatasetIndex N s i) (fun d =>
    if negb (writable path) then Exn N s (OnexExn ("Cannot open " ++ path)%string)
    else lift N s (saveData32 (st_heap N s) (ds_set N d) separator) (fun t =>
           Done N (with_file N s path t) (VUnit N))).

Definition api_normalize32 (s : st N) (i : Z) : res N :=
  lift N s (checkDatasetIndex N s i) (fun d =>
    lift N s (normalize32 (st_heap N s) (ds_set N d)) (fun '(h, set, (mn, mx)) =>
      Done N (put_set N (with_heap N s h) i (Some (mkDS N set (ds_groups N d) (ds_thr N d))))
        (VPair N mn mx))).

Definition api_group32 (s : st N) (i : Z) (threshold : T) (clock : Z -> bool) : res N :=
  lift N s (checkDatasetIndex N s i) (fun d =>
    if negb (isLoaded (ds_set N d)) then Exn N s (OnexExn "No data to group")
    else
      let clock l := clock l || (negb (st_logged N s) && (l =? 2)) in
      match global_group32 (st_heap N s) (st_ratio N s) (ds_set N d) "euclidean" threshold clock with
      | Ok (gs, n) =>
          let s' := put_set N s i (Some (mkDS N (ds_set N d) (Some gs) (Some threshold))) in
          let s' := if 2 <=? set_len (ds_set N d) then with_logged N s' true else s' in
          Done N s' (VInt N n)
      | Throw e =>
          Exn N (put_set N s i (Some (mkDS N (ds_set N d)
                 (Some (mkGS N [] "euclidean" (Some DPairwise))) (ds_thr N d)))) e
      | UB u => Bad N u
      | NoFuel => Hang N
      end).

Definition api_PAA32 (s : st N) (i : Z) (n : Z) : res N :=
  lift N s (checkDatasetIndex N s i) (fun d =>
    lift N s (PAA32 (st_heap N s) (ds_set N d) n) (fun '(h, set) =>
      let d' := mkDS N set (ds_groups N d) (ds_thr N d) in
      Done N (put_set N (with_heap N s h) i (Some d')) (VInfo N (info_of N i d')))).

Definition api_saveGroup32 (s : st N) (i : Z) (path : string) (groupSizeOnly : bool) : res N :=
  lift N s (checkDatasetIndex N s i) (fun d =>
    match ds_groups N d with
    | None => Exn N s (OnexExn "No group found")
    | Some gs =>
        if negb (writable path) then Exn N s (OnexExn "Cannot open file")
        else
          lift N s (init (ds_thr N d)) (fun thr =>
            let header := print_Z 1 ++ [sp] ++ io_print IO 6 thr ++ [sp] ++
                          print_Z (set_count (ds_set N d)) ++ [sp] ++
                          print_Z (set_len (ds_set N d)) ++ [nl] in
            lift N s (global_saveGroups32 (st_heap N s) gs groupSizeOnly) (fun t =>
              Done N (with_file N s path (header ++ t)) (VUnit N)))
    end).

Definition api_loadGroup32 (s : st N) (i : Z) (path : string) : res N :=
  lift N s (checkDatasetIndex N s i) (fun d =>
    match st_files N s path with
    | None => Exn N s (OnexExn "Cannot open file")
    | Some contents =>
        lift N s (load_header N IO (ds_set N d) (mkIS contents false)) (fun '(fin, thr) =>
          lift N s (global_loadGroups32 (ds_set N d) fin) (fun '(gs, r) =>
            let s' := put_set N s i (Some (mkDS N (ds_set N d) (Some gs) thr)) in
            match r with
            | inl n => Done N s' (VInt N n)
            | inr e => Exn N s' e
            end))
    end).

Definition api_match32 (s : st N) (result_idx query_idx index start end_ : Z) : res N :=
  lift N s (checkDatasetIndex N s result_idx) (fun d =>
    lift N s (checkDatasetIndex N s query_idx) (fun q =>
      lift N s (getTimeSeries32 (ds_set N q) index start end_) (fun query =>
        match ds_groups N d with
        | None => Exn N s (OnexExn "Dataset is not grouped")
        | Some gs =>
            lift N s (global_getBestMatch32 (st_heap N s) (st_ratio N s) (ds_set N d) gs query)
              (fun '(gs, c) =>
                 Done N (put_set N s result_idx (Some (mkDS N (ds_set N d) (Some gs) (ds_thr N d)))) (VCand N c))
        end))).

(** One call and a history of calls, as [step] and [run]. *)
Definition step32 (s : st N) (o : op N) : res N :=
  match o with
  | OpLoad _ p m c sep => api_load32 s p m c sep
  | OpSave _ i p c => api_save32 s i p c
  | OpNormalize _ i => api_normalize32 s i
  | OpGroup _ i t c => api_group32 s i t c
  | OpPAA _ i n => api_PAA32 s i n
  | OpSaveGroup _ i p b => api_saveGroup32 s i p b
  | OpLoadGroup _ i p => api_loadGroup32 s i p
  | OpMatch _ r q i a b => api_match32 s r q i a b
  | o => step N IO writable s o
  end.
Fixpoint run32 (s : st N) (l : list (op N)) : option (st N) :=
  match l with
  | [] => Some s
  | o :: l' => match after N (step32 s o) with Some s' => run32 s' l' | None => None end
  end.
End Ints.
