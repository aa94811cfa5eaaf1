(** * getBestMatch with the distance as a parameter.

    In the code the distance is a parameter too: Group::getBestMatch and LocalLengthGroupSpace::getBestGroup take it as
    an argument and GlobalGroupSpace keeps it in a member.  The functions of Groups.v and Api.v fix it to the cascade
    distance; [with_cascade] shows that they are the functions below at the cascade distance. *)
From Coq Require Import ZArith Bool String List.
From Verif Require Import Outcome Num Distance TimeSeries Text Dataset Groups Api.
Import ListNotations.
Open Scope Z_scope.

Section With.
Context (N : NumOps).
Local Notation T := (num N).
(** src/distance/Distance.hpp:19 [dist_t], on series with caches. *)
Definition distance : Type := heap N -> T -> ts N -> ts N -> T -> outcome (ts N * ts N * T).
Context (cas : distance).

(** Group.cpp:44-59 *)
Definition group_match_body_with (h : heap N) (ratio : T) (s : tset) (m : list membership) (g : group N)
           (st : match_state N) : outcome (match_state N) :=
  let '(cur, bestDist, bestMember, query) := st in
  t <- getTimeSeries N s (fst cur) (snd cur) (snd cur + g_length N g) ;;
  '(query, _, d) <- cas h ratio query t bestDist ;;
  let '(bestDist, bestMember) :=
    if nltb N d bestDist then (d, cur) else (bestDist, bestMember) in
  cur <- prev_of m (g_sub N g) cur ;;
  Ok (cur, bestDist, bestMember, query).
(** Group.cpp:37-67 *)
Definition group_getBestMatch_with (h : heap N) (ratio : T) (s : tset) (m : list membership) (g : group N)
           (query : ts N) : outcome (candidate N) :=
  '(_, bestDist, bestMember, _) <-
    while_ (walk_fuel m) (fun st : match_state N => let '(cur, _, _, _) := st in Ok (negb (fst cur =? -1)))
      (group_match_body_with h ratio s m g) (g_last N g, ninf N, (0, 0), query) ;;
  t <- getTimeSeries N s (fst bestMember) (snd bestMember) (snd bestMember + g_length N g) ;;
  Ok (mkCand (ts_copy t) bestDist).
(** LocalLengthGroupSpace.cpp:157-163 *)
Definition best_group_step_with (h : heap N) (ratio : T) (i : Z) (st : bg_state N) : outcome (bg_state N) :=
  let '(groups, query, bestDist, bestGroup) := st in
  g <- zget groups i ;;
  '(c, query, d) <- cas h ratio (g_centroid N g) query bestDist ;;
  groups <- zset groups i (set_centroid_ts N g c) ;;
  Ok (if nltb N d bestDist then (groups, query, d, Some i) else (groups, query, bestDist, bestGroup)).
(** LocalLengthGroupSpace.cpp:151-166 *)
Definition getBestGroup_with (h : heap N) (ratio : T) (ls : lspace N) (query : ts N) (dropout : T)
  : outcome (lspace N * ts N * option Z * T) :=
  '(groups, query, bestDist, bestGroup) <-
    for_ 0 (zlen (ls_groups N ls)) (best_group_step_with h ratio) (ls_groups N ls, query, dropout, None) ;;
  Ok (mkLS N (ls_length N ls) (ls_sub N ls) groups (ls_map N ls), query, bestGroup, bestDist).
(** GlobalGroupSpace.cpp:69-78 *)
Definition global_match_step_with (h : heap N) (ratio : T) (i : Z) (st : gm_state N) : outcome (gm_state N) :=
  let '(spaces, query, bestDist, bestGroup) := st in
  o <- zget spaces i ;;
  match o with
  | None => UB NullDeref
  | Some ls =>
      '(ls, query, gi, d) <- getBestGroup_with h ratio ls query bestDist ;;
      spaces <- zset spaces i (Some ls) ;;
      Ok (if nltb N d bestDist
          then (spaces, query, d, match gi with Some g => Some (i, g) | None => None end)
          else (spaces, query, bestDist, bestGroup))
  end.
(** GlobalGroupSpace.cpp:60-80 *)
Definition global_getBestMatch_with (h : heap N) (ratio : T) (s : tset) (gs : gspace N) (query : ts N)
  : outcome (gspace N * candidate N) :=
  if ts_len query <=? 1 then Throw (OnexExn "Length of query must be larger than 1")
  else
    order <- generateTraverseOrder N ratio (ts_len query) (zlen (gs_spaces N gs) - 1) ;;
    '(spaces, query, bestDist, bestGroup) <-
      for_each order (global_match_step_with h ratio) (gs_spaces N gs, query, ninf N, None) ;;
    match bestGroup with
    | None => UB NullDeref
    | Some (l, gi) =>
        o <- zget spaces l ;;
        match o with
        | None => UB NullDeref
        | Some ls =>
            g <- zget (ls_groups N ls) gi ;;
            c <- group_getBestMatch_with h ratio s (ls_map N ls) g query ;;
            Ok (mkGS N spaces (gs_name N gs) (gs_kind N gs), c)
        end
    end.
(** OnexAPI.cpp:140-147 with GroupableTimeSeriesSet.cpp:104-111 *)
Definition match_with (s : st N) (result_idx query_idx index start end_ : Z) : res N :=
  lift N s (checkDatasetIndex N s result_idx) (fun d =>
    lift N s (checkDatasetIndex N s query_idx) (fun q =>
      lift N s (getTimeSeries N (ds_set N q) index start end_) (fun query =>
        match ds_groups N d with
        | None => Exn N s (OnexExn "Dataset is not grouped")
        | Some gs =>
            lift N s (global_getBestMatch_with (st_heap N s) (st_ratio N s) (ds_set N d) gs query)
              (fun '(gs, c) =>
                 Done N (put_set N s result_idx (Some (mkDS N (ds_set N d) (Some gs) (ds_thr N d)))) (VCand N c))
        end))).
End With.

Theorem with_cascade : forall N IO writable (s : st N) r q ix a e,
  step N IO writable s (OpMatch N r q ix a e) = match_with N (cascade_ts N) s r q ix a e.
Proof. reflexivity. Qed.

(** [cas] does what the cascade distance does on series of at least two points; it may do anything else on shorter ones. *)
Definition agrees (N : NumOps) (cas : distance N) : Prop := forall h ratio x y d,
  2 <= ts_len x -> 2 <= ts_len y -> cas h ratio x y d = cascade_ts N h ratio x y d.
