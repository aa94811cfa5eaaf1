(** * Specification vocabulary for datasets, groups and matches. *)
From Coq Require Import ZArith Bool Lia String List.
From Verif Require Import Outcome Num Lemire Distance TimeSeries Text Dataset Groups Api.
Import ListNotations.
Open Scope Z_scope.

Section GroupSpec.
Context (N : NumOps).
Local Notation T := (num N).

(** Dataset [i] of the session is [d], with values [data] (row after row; the buffer may be longer
    than count * length because rows are reserved when loading). *)
Definition dataset (s : st N) (i : Z) (d : dset N) (data : list T) : Prop :=
  checkDatasetIndex N s i = Ok d /\
  exists b, set_buf (ds_set N d) = Some b /\ heap_get N (st_heap N s) b = Ok data /\
    0 <= set_count (ds_set N d) /\ set_count (ds_set N d) * set_len (ds_set N d) <= zlen data.

(** The subsequence of length [L] of series [fst c] that starts at [snd c]: does it exist, and its
    values. *)
Definition is_sub (count len L : Z) (c : coord) : Prop :=
  0 <= fst c < count /\ 0 <= snd c /\ snd c + L <= len.
Definition sub_values (data : list T) (len L : Z) (c : coord) : list T :=
  zslice data (fst c * len + snd c) L.

(** The order in which grouping visits the subsequences of one length: by start, then by series. *)
Definition visited_before (x y : coord) : Prop := snd x < snd y \/ (snd x = snd y /\ fst x < fst y).

(** The groups of length [L], as their methods show them, have the members [gm], each listed in order of
    insertion ([getMembers] gives the last one first), and the first member as representative. *)
Definition groups_are (h : heap N) (s : tset) (data : list T) (gs : gspace N) (L : Z) (gm : list (list coord)) : Prop :=
  exists ls, zget (gs_spaces N gs) L = Ok (Some ls) /\ getNumberOfGroups N ls = zlen gm /\
    forall i g ms, getGroup N ls i = Ok g -> zget gm i = Ok ms ->
      ms <> [] /\ g_count N g = zlen ms /\
      ts_read N h (g_centroid N g) = Ok (sub_values data (set_len s) L (hd (0, 0) ms)) /\
      exists l, getMembers N s (ls_map N ls) g = Ok l /\
        map (fun t => (ts_index t, ts_start t)) l = rev ms /\
        forall t, In t l -> ts_len t = L /\
          ts_read N h t = Ok (sub_values data (set_len s) L (ts_index t, ts_start t)).

(** Normalised Euclidean distance of two series of equal length, without dropout. *)
Definition dist_is (x y : list T) (d : T) : Prop := pairwiseDistance N x y (ninf N) = Ok d.

(** The result of grouping dataset [i] of session [s] with [thr]: the session afterwards and the groups. *)
Definition grouped (s : st N) (i : Z) (thr : T) (s' : st N) (n : Z) (gs : gspace N) : Prop :=
  exists clock d', api_group N s i thr clock = Done N s' (VInt N n) /\
    checkDatasetIndex N s' i = Ok d' /\ ds_groups N d' = Some gs.

(** The query that [getBestMatch] is asked for: series [ix] of dataset [q] from [a] to [e] (not
    included), or the whole series if both are negative. *)
Definition query_is (s : st N) (q ix a e : Z) (qv : list T) : Prop :=
  exists d data, dataset s q d data /\ 0 <= ix < set_count (ds_set N d) /\
    let len := set_len (ds_set N d) in
    (a < 0 /\ e < 0 /\ 0 <= len /\ qv = sub_values data len len (ix, 0)) \/
    (0 <= a < e /\ e <= len /\ qv = sub_values data len (e - a) (ix, a)).

(** The normalised warped distance, without dropout. *)
Definition dtw_is (ratio : T) (x y : list T) (d : T) : Prop := warpedDistance N ratio x y (ninf N) = Ok d.

(** ** Sessions. *)
(** Dataset [i] is loaded. *)
Definition has_dataset (s : st N) (i : Z) (d : dset N) : Prop :=
  0 <= i /\ nth_error (st_sets N s) (Z.to_nat i) = Some (Some d).

(** A match result denotes the subsequence of length [L] at [p]. *)
Definition denotes (h : heap N) (t : tset) (data : list T) (c : candidate N) (L : Z) (p : coord) : Prop :=
  2 <= L <= set_len t /\ is_sub (set_count t) (set_len t) L p /\
  ts_index (cand_data c) = fst p /\ ts_start (cand_data c) = snd p /\ ts_end (cand_data c) = snd p + L /\
  ts_len (cand_data c) = L /\ ts_read N h (cand_data c) = Ok (sub_values data (set_len t) L p).
(** The data of a dataset is allocated. *)
Definition live (s : st N) (d : dset N) : Prop :=
  forall b, set_buf (ds_set N d) = Some b -> exists data, heap_get N (st_heap N s) b = Ok data.
(** Every loaded dataset has its own allocated data.  All sessions that a program can reach are like
    this ([C45_reachable] in Properties_Api.v). *)
Definition wf (s : st N) : Prop :=
  (forall i d, checkDatasetIndex N s i = Ok d -> live s d) /\
  (forall i j d d' b, checkDatasetIndex N s i = Ok d -> checkDatasetIndex N s j = Ok d' ->
     set_buf (ds_set N d) = Some b -> set_buf (ds_set N d') = Some b -> i = j).

(** The operations that do not change dataset [i]: those that are not addressed to it, queries, saving,
    and all matches. *)
Definition quiet (i : Z) (o : op N) : Prop :=
  match o with
  | OpUnload _ j | OpNormalize _ j | OpGroup _ j _ _ | OpLoadGroup _ j _ | OpPAA _ j _ => j <> i
  | OpUnloadAll _ => False
  | _ => True
  end.
(** The dataset whose groups the operation searches. *)
Definition match_target (o : op N) : option Z := match o with OpMatch _ r _ _ _ _ => Some r | _ => None end.

(** The groups of length [L] that dataset [i] has now. *)
Definition groups_now (s : st N) (i : Z) (t : tset) (data : list T) (L : Z) (gm : list (list coord)) : Prop :=
  exists d gs, has_dataset s i d /\ ds_set N d = t /\ ds_groups N d = Some gs /\
    groups_are (st_heap N s) t data gs L gm.

(** Session [s'] is reached from a session where dataset [i], with the set [t] and the values [data], was
    grouped with [thr], by any history of operations that do not change it. *)
Definition grouped_earlier (IO : NumIO N) (writable : string -> bool) (s' : st N) (i : Z) (thr : T) (t : tset) (data : list T) : Prop :=
  exists s d s1 n gs ops, wf s /\ dataset s i d data /\ ds_set N d = t /\ grouped s i thr s1 n gs /\
    Forall (quiet i) ops /\ run N IO writable s1 ops = Some s'.

(** Two groupings that a caller cannot tell apart: for every length the same groups with the same members
    (as [getMembers] lists them), counts and representatives. *)
Definition same_groups (h h' : heap N) (s : tset) (gs gs' : gspace N) : Prop :=
  gs_name N gs = gs_name N gs' /\ zlen (gs_spaces N gs) = zlen (gs_spaces N gs') /\
  forall L, match zget (gs_spaces N gs) L, zget (gs_spaces N gs') L with
    | Ok (Some ls), Ok (Some ls') =>
        getNumberOfGroups N ls = getNumberOfGroups N ls' /\
        forall k g g', getGroup N ls k = Ok g -> getGroup N ls' k = Ok g' ->
          g_count N g = g_count N g' /\
          ts_read N h (g_centroid N g) = ts_read N h' (g_centroid N g') /\
          getMembers N s (ls_map N ls) g = getMembers N s (ls_map N ls') g'
    | o, o' => o = o'
    end.
(** The sessions that a program can reach from an empty one by API calls; exceptions are caught. *)
Definition reachable (IO : NumIO N) (writable : string -> bool) (s : st N) : Prop :=
  exists files ops, run N IO writable (st_init N files) ops = Some s.
(** The datasets that an operation names. *)
Definition ids_of (o : op N) : list Z :=
  match o with
  | OpSave _ i _ _ | OpUnload _ i | OpInfo _ i | OpNormalize _ i | OpGroup _ i _ _ | OpSaveGroup _ i _ _
  | OpLoadGroup _ i _ | OpPAA _ i _ => [i]
  | OpMatch _ r q _ _ _ => [r; q]
  | _ => []
  end.
(** Value [j] of series [t]. *)
Definition cell (d : dset N) (data : list T) (t j : Z) (x : T) : Prop :=
  0 <= t < set_count (ds_set N d) /\ 0 <= j < set_len (ds_set N d) /\
  zget data (t * set_len (ds_set N d) + j) = Ok x.
(** The mean of a list, in the arithmetic [N], summed from left to right. *)
Definition mean (l : list T) : T := ndiv N (fold_left (nadd N) l (nzero N)) (nofZ N (zlen l)).
(** Dataset [i], if there is one, has the same name, shape, flags, values, threshold and groups. *)
Definition unchanged (s s' : st N) (i : Z) : Prop :=
  forall d, has_dataset s i d -> exists d', has_dataset s' i d' /\
    ds_set N d' = ds_set N d /\ ds_thr N d' = ds_thr N d /\
    (forall b, set_buf (ds_set N d) = Some b -> heap_get N (st_heap N s') b = heap_get N (st_heap N s) b) /\
    match ds_groups N d, ds_groups N d' with
    | None, None => True
    | Some gs, Some gs' => same_groups (st_heap N s) (st_heap N s') (ds_set N d) gs gs'
    | _, _ => False
    end.

(** Two datasets of the same shape with the same values in their rows. *)
Definition same_values (t t' : tset) (data data' : list T) : Prop :=
  set_count t = set_count t' /\ set_len t = set_len t' /\
  firstn (Z.to_nat (set_count t * set_len t)) data = firstn (Z.to_nat (set_count t * set_len t)) data'.
(** Two answers of a match that a caller cannot tell apart. *)
Definition same_answer (r r' : res N) : Prop :=
  match r, r' with
  | Done _ s (VCand _ c), Done _ s' (VCand _ c') =>
      ts_index (cand_data c) = ts_index (cand_data c') /\ ts_start (cand_data c) = ts_start (cand_data c') /\
      ts_end (cand_data c) = ts_end (cand_data c') /\ ts_len (cand_data c) = ts_len (cand_data c') /\
      ts_read N (st_heap N s) (cand_data c) = ts_read N (st_heap N s') (cand_data c') /\
      cand_dist c = cand_dist c'
  | Exn _ _ e, Exn _ _ e' => e = e'
  | Bad _ u, Bad _ u' => u = u'
  | Hang _, Hang _ => True
  | _, _ => False
  end.
End GroupSpec.
