(** * Model of src/Group.{hpp,cpp}, src/LocalLengthGroupSpace.{hpp,cpp} and
    src/GlobalGroupSpace.{hpp,cpp}. *)
From Coq Require Import ZArith Bool Lia List Ascii String.
From Verif Require Import Outcome Num Lemire Distance TimeSeries Text Dataset.
Import ListNotations.
Open Scope Z_scope.

Section Groups.
Context (N : NumOps) (IO : NumIO N).
Local Notation T := (num N).
Local Notation heap := (heap N).
Local Notation ts := (ts N).

(** Group.hpp:19 *)
Definition coord : Type := Z * Z.

(** Group.hpp:25-33.  Value-initialised entries have prev = (0,0) and an indeterminate groupIndex. *)
Record membership : Type := mkMem { mem_prev : coord; mem_group : option Z }.
Definition mem_init : membership := mkMem (0, 0) None.

(** Group.hpp:146-158, without the references to the dataset and to the shared member map. *)
Record group : Type := mkGroup {
  g_index : Z;
  g_last : coord;
  g_length : Z;     (* memberLength *)
  g_sub : Z;        (* subTimeSeriesCount *)
  g_count : Z;
  g_centroid : ts
}.

(** LocalLengthGroupSpace.hpp: groups of one length and their shared member map. *)
Record lspace : Type := mkLS {
  ls_length : Z;
  ls_sub : Z;
  ls_groups : list group;
  ls_map : list membership
}.

(** Group.hpp:70-79 *)
Definition new_group (groupIndex memberLength sub : Z) : outcome group :=
  c <- ts_new N memberLength ;;
  Ok (mkGroup groupIndex (-1, -1) memberLength sub 0 c).

(** Group.cpp:18-24 *)
Definition addMember (m : list membership) (g : group) (tsIndex tsStart : Z)
  : outcome (list membership * group) :=
  m <- zset m (tsIndex * g_sub g + tsStart) (mkMem (g_last g) (Some (g_index g))) ;;
  Ok (m, mkGroup (g_index g) (tsIndex, tsStart) (g_length g) (g_sub g) (g_count g + 1)
                 (g_centroid g)).

(** Group.cpp:26-29 (move assignment from the temporary returned by getTimeSeries). *)
Definition setCentroid (s : tset) (g : group) (tsIndex tsStart : Z) : outcome group :=
  t <- getTimeSeries N s tsIndex tsStart (tsStart + g_length g) ;;
  Ok (mkGroup (g_index g) (g_last g) (g_length g) (g_sub g) (g_count g)
              (ts_assign (g_centroid g) t)).

(** src/Group.hpp: the member [centroid] after it was changed in place (its cached envelope, TimeSeries.cpp:84-119,
    or an assignment, TimeSeries.cpp:20-38). *)
Definition set_centroid_ts (g : group) (c : ts) : group :=
  mkGroup (g_index g) (g_last g) (g_length g) (g_sub g) (g_count g) c.

(** Number of iterations after which a walk over back links must have repeated a member. *)
Definition walk_fuel (m : list membership) : nat := S (List.length m).

(** Group.cpp:44,58: one step of the walk over the members. *)
Definition prev_of (m : list membership) (sub : Z) (c : coord) : outcome coord :=
  e <- zget m (fst c * sub + snd c) ;;
  Ok (mem_prev e).

(** Group.cpp:44-59: body of the member loop; state (current, best distance, best member,
    query). *)
Definition match_state : Type := coord * T * coord * ts.
Definition group_match_body (h : heap) (ratio : T) (s : tset) (m : list membership) (g : group)
           (st : match_state) : outcome match_state :=
  let '(cur, bestDist, bestMember, query) := st in
  t <- getTimeSeries N s (fst cur) (snd cur) (snd cur + g_length g) ;;
  '(query, _, d) <- cascade_ts N h ratio query t bestDist ;;
  let '(bestDist, bestMember) :=
    if nltb N d bestDist then (d, cur) else (bestDist, bestMember) in
  cur <- prev_of m (g_sub g) cur ;;
  Ok (cur, bestDist, bestMember, query).

(** Group.cpp:37-67 [Group::getBestMatch] with the cascade distance (the only one it is called
    with, GlobalGroupSpace.cpp:40,79).  std::pair's default constructor makes the initial best
    member (0,0). *)
Definition group_getBestMatch (h : heap) (ratio : T) (s : tset) (m : list membership) (g : group)
           (query : ts) : outcome (candidate N) :=
  '(_, bestDist, bestMember, _) <-
    while_ (walk_fuel m) (fun st => let '(cur, _, _, _) := st in Ok (negb (fst cur =? -1)))
      (group_match_body h ratio s m g) (g_last g, ninf N, (0, 0), query) ;;
  t <- getTimeSeries N s (fst bestMember) (snd bestMember) (snd bestMember + g_length g) ;;
  Ok (mkCand (ts_copy t) bestDist).

(** Group.cpp:69-83 [getMembers]: the coordinates and the series, last member first. *)
Definition getMembers (s : tset) (m : list membership) (g : group) : outcome (list ts) :=
  '(_, l) <- while_ (walk_fuel m) (fun st : coord * list ts => Ok (negb (fst (fst st) =? -1)))
    (fun st : coord * list ts =>
       let '(cur, acc) := st in
       t <- getTimeSeries N s (fst cur) (snd cur) (snd cur + g_length g) ;;
       cur <- prev_of m (g_sub g) cur ;;
       Ok (cur, acc ++ [ts_copy t])) (g_last g, []) ;;
  Ok l.

(** TimeSeries.cpp:133-139 [printData]. *)
Definition printData (h : heap) (t : ts) : outcome text :=
  v <- ts_read N h t ;;
  Ok (flat_map (fun x => io_print IO 16 x ++ [sp]) v).

(** Group.cpp:85-101 [saveGroup]. *)
Definition saveGroup (h : heap) (m : list membership) (g : group) : outcome text :=
  c <- printData h (g_centroid g) ;;
  let out := c ++ [nl] ++ print_Z (g_count g) ++ [sp] in
  '(_, out) <- while_ (walk_fuel m) (fun st : coord * text => Ok (negb (fst (fst st) =? -1)))
    (fun st : coord * text =>
       let '(cur, out) := st in
       let out := out ++ print_Z (fst cur) ++ [sp] ++ print_Z (snd cur) ++ [sp] in
       cur <- prev_of m (g_sub g) cur ;;
       Ok (cur, out)) (g_last g, out) ;;
  Ok (out ++ [nl]).

(** Use of a variable that an extraction may have left uninitialised. *)
Definition init {A} (o : option A) : outcome A :=
  match o with Some x => Ok x | None => UB Uninit end.

(** Group.cpp:103-118 [loadGroup].  [centroid[i]] keeps its value 0 when an extraction does not store. *)
Definition loadGroup (fin : istream) (m : list membership) (g : group)
  : outcome (istream * list membership * group) :=
  c0 <- ts_new N (g_length g) ;;
  '(fin, v) <- for_ 0 (g_length g) (fun i st =>
      let '(fin, v) := st in
      let '(fin, x) := extract (io_conv IO) fin in
      match x with
      | Some x => v <- zset v i x ;; Ok (fin, v)
      | None => Ok (fin, v)
      end) (fin, zrepeat (nzero N) (g_length g)) ;;
  let c := mkTS (Owned v) (ts_index c0) (ts_start c0) (ts_end c0) (ts_len c0) None in
  let g := set_centroid_ts g (ts_assign (g_centroid g) c) in
  let '(fin, cnt) := extract conv_int fin in
  cnt <- init cnt ;;
  '(fin, m, g, _) <- for_ 0 cnt (fun _ st =>
      let '(fin, m, g, (index, start)) := st in
      let '(fin, i1) := extract conv_int fin in
      let index := match i1 with Some _ => i1 | None => index end in
      let '(fin, i2) := extract conv_int fin in
      let start := match i2 with Some _ => i2 | None => start end in
      idx <- init index ;;
      st_ <- init start ;;
      '(m, g) <- addMember m g idx st_ ;;
      Ok (fin, m, g, (index, start))) (fin, m, g, (None, None)) ;;
  Ok (fin, m, g).

(** LocalLengthGroupSpace.cpp:24-29.  A negative size throws std::length_error. *)
Definition new_lspace (s : tset) (length : Z) : outcome lspace :=
  let sub := set_len s - length + 1 in
  let n := set_count s * sub in
  if n <? 0 then Throw (LogicExn "std::length_error")
  else Ok (mkLS length sub [] (zrepeat mem_init n)).

(** LocalLengthGroupSpace.cpp:78-86: the search for the nearest centroid; state (bestSoFar,
    bestSoFarIndex); [None] is the uninitialised index. *)
Definition nearest_step (k : dist_kind) (h : heap) (ratio : T) (groups : list group) (query : ts)
           (i : Z) (st : T * option Z) : outcome (T * option Z) :=
  let '(best, besti) := st in
  g <- zget groups i ;;
  d <- dist_ts N k h ratio (g_centroid g) query best ;;
  Ok (if nltb N d best then (d, Some i) else (best, besti)).

Definition nearest (k : dist_kind) (h : heap) (ratio : T) (groups : list group) (query : ts)
  : outcome (T * option Z) :=
  for_ 0 (zlen groups) (nearest_step k h ratio groups query) (ninf N, None).

(** LocalLengthGroupSpace.cpp:73-97: one subsequence is put into a group. *)
Definition insert_one (k : dist_kind) (h : heap) (ratio : T) (s : tset) (threshold : T)
           (start idx : Z) (ls : lspace) : outcome lspace :=
  query <- getTimeSeries N s idx start (start + ls_length ls) ;;
  '(best, besti) <- nearest k h ratio (ls_groups ls) query ;;
  '(groups, besti) <-
    (if nltb N (ndiv N threshold (nofZ N 2)) best || (zlen (ls_groups ls) =? 0) then
       let i := zlen (ls_groups ls) in
       g <- new_group i (ls_length ls) (ls_sub ls) ;;
       g <- setCentroid s g idx start ;;
       Ok (ls_groups ls ++ [g], Some i)
     else Ok (ls_groups ls, besti)) ;;
  besti <- init besti ;;
  g <- zget groups besti ;;
  '(m, g) <- addMember (ls_map ls) g idx start ;;
  groups <- zset groups besti g ;;
  Ok (mkLS (ls_length ls) (ls_sub ls) groups m).

(** LocalLengthGroupSpace.cpp:66-71: progress message; LOG_FREQ = 5.  Only the integer division by
    [totalTimeSeries / LOG_FREQ] matters. *)
Definition log_progress (doLog : bool) (counter total : Z) : outcome unit :=
  if doLog then if Z.quot total 5 =? 0 then UB DivZero else Ok tt else Ok tt.

(** LocalLengthGroupSpace.cpp:48-102 [generateGroups].  [doLog] abstracts the clock test of lines
    50-55. *)
Definition generateGroups (k : dist_kind) (h : heap) (ratio : T) (s : tset) (threshold : T)
           (doLog : bool) (ls : lspace) : outcome lspace :=
  let total := ls_sub ls * set_count s in
  '(ls, _) <- for_ 0 (ls_sub ls) (fun start st =>
      for_ 0 (set_count s) (fun idx st =>
        let '(ls, counter) := st in
        let counter := counter + 1 in
        _ <- log_progress doLog counter total ;;
        ls <- insert_one k h ratio s threshold start idx ls ;;
        Ok (ls, counter)) st) (ls, 0) ;;
  Ok ls.

(** LocalLengthGroupSpace.cpp:104-107 *)
Definition getNumberOfGroups (ls : lspace) : Z := zlen (ls_groups ls).

(** LocalLengthGroupSpace.cpp:109-115 *)
Definition getGroup (ls : lspace) (idx : Z) : outcome group :=
  if (idx <? 0) || (getNumberOfGroups ls <=? idx) then
    Throw (OnexExn "Group index is out of range")
  else zget (ls_groups ls) idx.

(** LocalLengthGroupSpace.cpp:117-135 *)
Definition local_saveGroups (h : heap) (ls : lspace) (groupSizeOnly : bool) : outcome text :=
  let out := print_Z (zlen (ls_groups ls)) ++ [nl] in
  if groupSizeOnly then
    Ok (out ++ flat_map (fun g => print_Z (g_count g) ++ [sp]) (ls_groups ls) ++ [nl])
  else
    for_each (ls_groups ls) (fun g out => t <- saveGroup h (ls_map ls) g ;; Ok (out ++ t)) out.

(** LocalLengthGroupSpace.cpp:137-149.  The loop counter is unsigned: a negative number of groups
    makes the loop (practically) endless; it is reported as [NoFuel]. *)
Definition local_loadGroups (fin : istream) (ls : lspace) : outcome (istream * lspace * Z) :=
  let '(fin, n) := extract conv_int fin in
  n <- init n ;;
  if n <? 0 then NoFuel
  else
    '(fin, m, groups) <- for_ 0 n (fun i st =>
        let '(fin, m, groups) := st in
        g <- new_group i (ls_length ls) (ls_sub ls) ;;
        '(fin, m, g) <- loadGroup fin m g ;;
        Ok (fin, m, groups ++ [g])) (fin, ls_map ls, []) ;;
    Ok (fin, mkLS (ls_length ls) (ls_sub ls) groups m, n).

(** LocalLengthGroupSpace.cpp:157-163: body of getBestGroup; state (groups with updated caches,
    query, best distance, best group index). *)
Definition bg_state : Type := list group * ts * T * option Z.
Definition best_group_step (h : heap) (ratio : T) (i : Z) (st : bg_state) : outcome bg_state :=
  let '(groups, query, bestDist, bestGroup) := st in
  g <- zget groups i ;;
  '(c, query, d) <- cascade_ts N h ratio (g_centroid g) query bestDist ;;
  groups <- zset groups i (set_centroid_ts g c) ;;
  Ok (if nltb N d bestDist then (groups, query, d, Some i) else (groups, query, bestDist, bestGroup)).

(** LocalLengthGroupSpace.cpp:151-166 [getBestGroup] with the cascade distance; returns the space
    (its centroids' caches may have changed), the query and (group, distance). *)
Definition getBestGroup (h : heap) (ratio : T) (ls : lspace) (query : ts) (dropout : T)
  : outcome (lspace * ts * option Z * T) :=
  '(groups, query, bestDist, bestGroup) <-
    for_ 0 (zlen (ls_groups ls)) (best_group_step h ratio) (ls_groups ls, query, dropout, None) ;;
  Ok (mkLS (ls_length ls) (ls_sub ls) groups (ls_map ls), query, bestGroup, bestDist).

(** GlobalGroupSpace.cpp:116-153 [generateTraverseOrder]; state (order, low, high, lowStop,
    highStop). *)
Definition to_state : Type := list Z * Z * Z * bool * bool.
Definition traverse_body (ratio : T) (queryLength totalLength : Z) (st : to_state)
  : outcome to_state :=
  let '(order, low, high, lowStop, highStop) := st in
  let lowStop := lowStop || (low <? 2) in
  let highStop := highStop || (totalLength <? high) in
  '(order, low, lowStop) <-
    (if negb lowStop then
       r <- calculateWarpingBandSize N ratio queryLength ;;
       if queryLength <=? low + r then Ok (order ++ [low], low - 1, lowStop)
       else Ok (order, low, true)
     else Ok (order, low, lowStop)) ;;
  '(order, high, highStop) <-
    (if negb highStop then
       r <- calculateWarpingBandSize N ratio high ;;
       if high <=? queryLength + r then Ok (order ++ [high], high + 1, highStop)
       else Ok (order, high, true)
     else Ok (order, high, highStop)) ;;
  Ok (order, low, high, lowStop, highStop).

(** Every iteration moves low down or high up or sets a stop flag, so this many iterations suffice. *)
Definition traverse_fuel (queryLength totalLength : Z) : nat :=
  S (S (Z.to_nat queryLength + Z.to_nat (totalLength - queryLength))).

Definition generateTraverseOrder (ratio : T) (queryLength totalLength : Z) : outcome (list Z) :=
  '(order, _, _, _, _) <-
    while_ (traverse_fuel queryLength totalLength)
      (fun st : to_state => let '(_, _, _, ls, hs) := st in Ok (negb (ls && hs)))
      (traverse_body ratio queryLength totalLength)
      ([queryLength], queryLength - 1, queryLength + 1, false, false) ;;
  Ok order.

(** GlobalGroupSpace.hpp: the group spaces of all lengths (index = length; null for lengths without
    a space) and the distance. *)
Record gspace : Type := mkGS {
  gs_spaces : list (option lspace);
  gs_name : string;               (* distanceName *)
  gs_kind : option dist_kind      (* pairwiseDistance; None while unset *)
}.

(** GlobalGroupSpace.cpp:47,107: [vector.resize(n, nullptr)]; a negative n converts to a huge
    size_t and throws std::length_error. *)
Definition resize_null (n : Z) : outcome (list (option lspace)) :=
  if n <? 0 then Throw (LogicExn "std::length_error") else Ok (zrepeat None n).

(** GlobalGroupSpace.cpp:43-58 [group].  [clock i] tells whether the call for length [i] logs.
    Returns the space and the number of groups. *)
Definition global_group (h : heap) (ratio : T) (s : tset) (name : string) (threshold : T)
           (clock : Z -> bool) : outcome (gspace * Z) :=
  k <- getDistance name ;;
  spaces <- resize_null (set_len s + 1) ;;
  '(spaces, total) <- for_ 2 (zlen spaces) (fun i st =>
      let '(spaces, total) := st in
      ls <- new_lspace s i ;;
      ls <- generateGroups k h ratio s threshold (clock i) ls ;;
      spaces <- zset spaces i (Some ls) ;;
      Ok (spaces, total + getNumberOfGroups ls)) (spaces, 0) ;;
  Ok (mkGS spaces name (Some k), total).

(** GlobalGroupSpace.cpp:69-78: body of the loop over lengths; state (spaces, query, best distance,
    best group as (length, index)). *)
Definition gm_state : Type := list (option lspace) * ts * T * option (Z * Z).
Definition global_match_step (h : heap) (ratio : T) (i : Z) (st : gm_state) : outcome gm_state :=
  let '(spaces, query, bestDist, bestGroup) := st in
  o <- zget spaces i ;;
  match o with
  | None => UB NullDeref
  | Some ls =>
      '(ls, query, gi, d) <- getBestGroup h ratio ls query bestDist ;;
      spaces <- zset spaces i (Some ls) ;;
      Ok (if nltb N d bestDist
          then (spaces, query, d, match gi with Some g => Some (i, g) | None => None end)
          else (spaces, query, bestDist, bestGroup))
  end.

(** GlobalGroupSpace.cpp:60-80 [getBestMatch].  Also returns the spaces, whose centroid caches may have
    been filled. *)
Definition global_getBestMatch (h : heap) (ratio : T) (s : tset) (gs : gspace) (query : ts)
  : outcome (gspace * candidate N) :=
  if ts_len query <=? 1 then Throw (OnexExn "Length of query must be larger than 1")
  else
    order <- generateTraverseOrder ratio (ts_len query) (zlen (gs_spaces gs) - 1) ;;
    '(spaces, query, bestDist, bestGroup) <-
      for_each order (global_match_step h ratio) (gs_spaces gs, query, ninf N, None) ;;
    match bestGroup with
    | None => UB NullDeref
    | Some (l, gi) =>
        o <- zget spaces l ;;
        match o with
        | None => UB NullDeref
        | Some ls =>
            g <- zget (ls_groups ls) gi ;;
            c <- group_getBestMatch h ratio s (ls_map ls) g query ;;
            Ok (mkGS spaces (gs_name gs) (gs_kind gs), c)
        end
    end.

(** GlobalGroupSpace.cpp:87-95 [saveGroups]. *)
Definition global_saveGroups (h : heap) (gs : gspace) (groupSizeOnly : bool) : outcome text :=
  let out := print_Z 2 ++ [sp] ++ print_Z (zlen (gs_spaces gs)) ++ [nl] ++
             T_ (gs_name gs) ++ [nl] in
  for_ 2 (zlen (gs_spaces gs)) (fun i out =>
    o <- zget (gs_spaces gs) i ;;
    match o with
    | None => UB NullDeref
    | Some ls => t <- local_saveGroups h ls groupSizeOnly ;; Ok (out ++ t)
    end) out.

(** Running a computation that may throw inside a loop whose state must survive the exception. *)
Definition catch {A} (o : outcome A) : outcome (A + exn) :=
  match o with
  | Ok a => Ok (inl a)
  | Throw e => Ok (inr e)
  | UB u => UB u
  | NoFuel => NoFuel
  end.

(** GlobalGroupSpace.cpp:97-114 [loadGroups].  Returns the space as it is left, and the number of groups
    or the exception thrown.  Uninitialised lenFrom/lenTo are never used: the stream has then failed,
    so the distance name is empty and line 106 throws.  (boost::trim_right does nothing on a word.)
    The loop counter of line 108 is unsigned: a negative bound is a huge number.  If the body would
    run with a huge index, or past the end of the vector, this is [UB OutOfBounds]. *)
Definition global_loadGroups (s : tset) (fin : istream) : outcome (gspace * (Z + exn)) :=
  let '(fin, lenFrom) := extract conv_int fin in
  let '(fin, lenTo) := extract conv_int fin in
  let '(fin, dist) := extract conv_word fin in
  let name := match dist with Some w => string_of_list_ascii w | None => EmptyString end in
  match getDistance name with
  | Throw e => Ok (mkGS [] name None, inr e)
  | UB u => UB u
  | NoFuel => NoFuel
  | Ok k =>
      match resize_null (set_len s + 1) with
      | Throw e => Ok (mkGS [] name (Some k), inr e)
      | UB u => UB u
      | NoFuel => NoFuel
      | Ok spaces =>
          lenFrom <- init lenFrom ;;
          lenTo <- init lenTo ;;
          let u z := if z <? 0 then z + 4294967296 else z in
          if int_max <? u lenFrom then
            if u lenFrom <? u lenTo then UB OutOfBounds
            else Ok (mkGS spaces name (Some k), inl 0)
          else
            let hi := if int_max <? u lenTo then zlen spaces + 1 else lenTo in
            '(fin, spaces, r) <- forb lenFrom hi (fun i st =>
                let '(fin, spaces, r) := st in
                c <- catch (gel <- new_lspace s i ;; local_loadGroups fin gel) ;;
                match c, r with
                | inr e, _ => Ok (Break (fin, spaces, inr e))
                | inl _, inr e => Ok (Break (fin, spaces, inr e))
                | inl (fin, gel, n), inl total =>
                    spaces <- zset spaces i (Some gel) ;;
                    Ok (Next (fin, spaces, inl (total + n)))
                end) (fin, spaces, inl 0 : Z + exn) ;;
            Ok (mkGS spaces name (Some k), r)
      end
  end.
End Groups.
