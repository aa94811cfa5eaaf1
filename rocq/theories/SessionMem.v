(** * Model of the memory behind the session: which objects and arrays are allocated and released, and when.

    Api.v models datasets and groups as values; here datasets, group spaces, groups and arrays are blocks that are allocated with [new] and
    released with [delete] by the constructors, destructors and [reset] functions of src/.  Simplifications: the contents of arrays are
    left out; the storage of std::vector and std::string belongs to the object that has the vector; temporaries that do not own an array
    (series given by getTimeSeries, queries) and their envelopes are left out, SeriesMem.v has them; a released block is never used
    again for another object; allocation does not fail; [delete] for an array (TimeSeries.cpp:53, TimeSeriesSet.cpp:307) releases it.
    What a call computes is a parameter here (how many groups, which envelopes): [drives] in SessionMemSpec.v takes it from Api.v. *)
From Coq Require Import ZArith Bool List String.
From Verif Require Import Outcome.
Import ListNotations.
Open Scope Z_scope.

(** src/TimeSeries.hpp:175-185: the pointers of a series, and isOwnerOfData. *)
Record series : Type := mkSeries { s_data : option nat; s_owner : bool; s_lower : option nat; s_upper : option nat }.
(** What a block holds.  [CSet]: GroupableTimeSeriesSet with TimeSeriesSet (data, groupsAllLengthSet); [CGlobal]: GlobalGroupSpace
    (localLengthGroupSpace); [CLocal]: LocalLengthGroupSpace (groups); [CGroup]: Group (centroid). *)
Inductive cell : Type :=
| CArr
| CSet (data gs : option nat)
| CGlobal (spaces : list (option nat))
| CLocal (groups : list nat)
| CGroup (centroid : series).
(** All blocks ever allocated; [None] is one that was released. *)
Definition mem : Type := list (option cell).

(** C++ language: new, delete, access. *)
Definition m_new (m : mem) (c : cell) : mem * nat := (m ++ [Some c], List.length m).
Definition m_get (m : mem) (p : nat) : outcome cell :=
  match nth_error m p with
  | Some (Some c) => Ok c
  | Some None => UB UseAfterFree
  | None => UB OutOfBounds
  end.
Definition m_put (m : mem) (p : nat) (c : cell) : outcome mem := _ <- m_get m p ;; Ok (list_set m p (Some c)).
(** Releasing a block twice is undefined behaviour. *)
Definition m_free (m : mem) (p : nat) : outcome mem := _ <- m_get m p ;; Ok (list_set m p None).
Definition m_free_opt (m : mem) (p : option nat) : outcome mem := match p with Some p => m_free m p | None => Ok m end.

(** src/TimeSeries.cpp:36-46: move assignment forgets the array that the series had. *)
Definition series_move (dst : series) (data : option nat) (owner : bool) : series := mkSeries data owner (s_lower dst) (s_upper dst).
(** src/TimeSeries.cpp:48-60 *)
Definition series_destroy (m : mem) (s : series) : outcome mem :=
  m <- (if s_owner s then m_free_opt m (s_data s) else Ok m) ;;
  m <- m_free_opt m (s_lower s) ;;
  m_free_opt m (s_upper s).
(** src/TimeSeries.cpp:102-119: the envelope is computed anew. *)
Definition series_envelope (m : mem) (s : series) : outcome (mem * series) :=
  m <- m_free_opt m (s_lower s) ;;
  m <- m_free_opt m (s_upper s) ;;
  let '(m, l) := m_new m CArr in
  let '(m, u) := m_new m CArr in
  Ok (m, mkSeries (s_data s) (s_owner s) (Some l) (Some u)).

Definition group_at (m : mem) (p : nat) : outcome series :=
  c <- m_get m p ;; match c with CGroup s => Ok s | _ => UB OutOfBounds end.
Definition local_at (m : mem) (p : nat) : outcome (list nat) :=
  c <- m_get m p ;; match c with CLocal l => Ok l | _ => UB OutOfBounds end.
Definition global_at (m : mem) (p : nat) : outcome (list (option nat)) :=
  c <- m_get m p ;; match c with CGlobal l => Ok l | _ => UB OutOfBounds end.
Definition set_at (m : mem) (p : nat) : outcome (option nat * option nat) :=
  c <- m_get m p ;; match c with CSet d g => Ok (d, g) | _ => UB OutOfBounds end.

(** src/Group.hpp:70-79: the constructor makes the centroid a series with its own array (TimeSeries.hpp:76-81). *)
Definition group_new (m : mem) : outcome (mem * nat) :=
  let '(m, a) := m_new m CArr in
  Ok (m_new m (CGroup (mkSeries (Some a) true None None))).
(** src/Group.cpp:26-29: a series of the dataset is moved into the centroid. *)
Definition group_setCentroid (m : mem) (p : nat) (data : option nat) : outcome mem :=
  s <- group_at m p ;;
  m_put m p (CGroup (series_move s data false)).
(** src/Group.cpp:106: a temporary series with its own array is moved into the centroid; its destructor then deletes the null pointer. *)
Definition group_load (m : mem) (p : nat) : outcome mem :=
  s <- group_at m p ;;
  let '(m, a) := m_new m CArr in
  m_put m p (CGroup (series_move s (Some a) true)).
(** The destructor of Group (implicit) and of its centroid. *)
Definition group_delete (m : mem) (p : nat) : outcome mem :=
  s <- group_at m p ;;
  m <- series_destroy m s ;;
  m_free m p.

(** src/LocalLengthGroupSpace.cpp:31-44 *)
Definition local_delete (m : mem) (p : nat) : outcome mem :=
  l <- local_at m p ;;
  m <- for_each l (fun g m => group_delete m g) m ;;
  m_free m p.
Fixpoint times {S} (k : nat) (body : S -> outcome S) (s : S) : outcome S :=
  match k with O => Ok s | S k => s <- body s ;; times k body s end.
(** src/LocalLengthGroupSpace.cpp:91-99: one new group. *)
Definition local_generate_one (p : nat) (data : option nat) (m : mem) : outcome mem :=
  '(m, g) <- group_new m ;;
  l <- local_at m p ;;
  m <- m_put m p (CLocal (l ++ [g])) ;;
  group_setCentroid m g data.
(** src/LocalLengthGroupSpace.cpp:142-147: one group of a file. *)
Definition local_load_one (p : nat) (m : mem) : outcome mem :=
  '(m, g) <- group_new m ;;
  m <- group_load m g ;;
  l <- local_at m p ;;
  m_put m p (CLocal (l ++ [g])).

(** src/GlobalGroupSpace.cpp:27-34 (also the destructor, GlobalGroupSpace.hpp:33-36, which then releases the space). *)
Definition global_delete (m : mem) (p : nat) : outcome mem :=
  l <- global_at m p ;;
  m <- for_each l (fun o m => match o with Some q => local_delete m q | None => Ok m end) m ;;
  m_free m p.
Definition global_place (m : mem) (p : nat) (pos : nat) (q : nat) : outcome mem :=
  l <- global_at m p ;;
  if (pos <? List.length l)%nat then m_put m p (CGlobal (list_set l pos (Some q))) else UB OutOfBounds.
Fixpoint numbered {A} (n : nat) (l : list A) : list (nat * A) :=
  match l with [] => [] | a :: l => (n, a) :: numbered (S n) l end.
(** src/GlobalGroupSpace.cpp:43-58: [sp] says at which positions spaces are made, and how many groups each gets. *)
Definition global_group (m : mem) (p : nat) (data : option nat) (sp : list (option nat)) : outcome mem :=
  m <- m_put m p (CGlobal (repeat None (List.length sp))) ;;
  for_each (numbered 0 sp) (fun '(pos, o) m =>
    match o with
    | None => Ok m
    | Some k => let '(m, q) := m_new m (CLocal []) in
                m <- global_place m p pos q ;;
                times k (local_generate_one q data) m
    end) m.
(** src/GlobalGroupSpace.cpp:97-114: a space is placed when its groups have been read.  (An exception of this function comes from the
    constructor of a space, which then releases the space: [load_throws] in SessionMemLink.v.) *)
Definition global_load (m : mem) (p : nat) (sp : list (option nat)) : outcome mem :=
  m <- m_put m p (CGlobal (repeat None (List.length sp))) ;;
  for_each (numbered 0 sp) (fun '(pos, o) m =>
    match o with
    | None => Ok m
    | Some k => let '(m, q) := m_new m (CLocal []) in
                m <- times k (local_load_one q) m ;;
                global_place m p pos q
    end) m.

(** src/GroupableTimeSeriesSet.cpp:42-46 *)
Definition set_reset (m : mem) (p : nat) : outcome mem :=
  '(d, g) <- set_at m p ;;
  m <- match g with Some q => global_delete m q | None => Ok m end ;;
  m_put m p (CSet d None).
(** src/TimeSeriesSet.cpp:184-190 *)
Definition set_clear (m : mem) (p : nat) : outcome mem :=
  '(d, g) <- set_at m p ;;
  m <- m_free_opt m d ;;
  m_put m p (CSet None g).
(** src/GroupableTimeSeriesSet.cpp:16-19, then src/TimeSeriesSet.cpp:17-20, then the block. *)
Definition set_delete (m : mem) (p : nat) : outcome mem :=
  m <- set_reset m p ;;
  m <- set_clear m p ;;
  m_free m p.

(** OnexAPI.hpp:146: loadedDatasets. *)
Record mst : Type := mkM { m_mem : mem; m_sets : list (option nat) }.
Definition m_init : mst := mkM [] [].

Inductive mop : Type :=
| MLoad (rows fails : bool)
| MUnload (i : nat)
| MUnloadAll
| MGroup (i : nat) (sp : list (option nat))
| MLoadGroup (i : nat) (sp : list (option nat))
| MMatch (i : nat) (env : list (nat * nat))    (* the groups, by length and number, whose envelope is computed *)
| MPAA (i : nat)
| MIdle.                                       (* calls that allocate and release nothing that stays *)

Definition slot (s : mst) (i : nat) : outcome nat :=
  match nth_error (m_sets s) i with Some (Some p) => Ok p | _ => UB NullDeref end.
(** OnexAPI.cpp:30-43 *)
Fixpoint free_slot (l : list (option nat)) : nat :=
  match l with [] => O | None :: _ => O | Some _ :: l => S (free_slot l) end.
(** OnexAPI.cpp:17-49 with TimeSeriesSet.cpp:74-165; [rows]: the array is allocated (line 107); [fails]: the load throws, after
    clearData (lines 117, 135, 141) or before anything was allocated (line 83). *)
Definition op_load (s : mst) (rows fails : bool) : outcome mst :=
  let '(m, p) := m_new (m_mem s) (CSet None None) in
  m <- set_clear m p ;;
  m <- (if rows then let '(m, a) := m_new m CArr in m_put m p (CSet (Some a) None) else Ok m) ;;
  if fails then
    m <- set_clear m p ;;
    m <- set_delete m p ;;
    Ok (mkM m (m_sets s))
  else
    let n := free_slot (m_sets s) in
    Ok (mkM m (if (n <? List.length (m_sets s))%nat then list_set (m_sets s) n (Some p) else m_sets s ++ [Some p])).
(** OnexAPI.cpp:57-68 *)
Definition op_unload (s : mst) (i : nat) : outcome mst :=
  p <- slot s i ;;
  m <- set_delete (m_mem s) p ;;
  Ok (mkM m (if (i =? List.length (m_sets s) - 1)%nat then removelast (m_sets s) else list_set (m_sets s) i None)).
(** OnexAPI.cpp:70-78 (also the destructor, OnexAPI.cpp:12-15) *)
Definition op_unloadAll (s : mst) : outcome mst :=
  m <- for_each (m_sets s) (fun o m => match o with Some p => set_delete m p | None => Ok m end) (m_mem s) ;;
  Ok (mkM m []).
(** GroupableTimeSeriesSet.cpp:28-32 *)
Definition op_group (s : mst) (i : nat) (sp : list (option nat)) : outcome mst :=
  p <- slot s i ;;
  m <- set_reset (m_mem s) p ;;
  let '(m, q) := m_new m (CGlobal []) in
  '(d, _) <- set_at m p ;;
  m <- m_put m p (CSet d (Some q)) ;;
  m <- global_group m q d sp ;;
  Ok (mkM m (m_sets s)).
(** GroupableTimeSeriesSet.cpp:92-95 *)
Definition op_loadGroup (s : mst) (i : nat) (sp : list (option nat)) : outcome mst :=
  p <- slot s i ;;
  m <- set_reset (m_mem s) p ;;
  let '(m, q) := m_new m (CGlobal []) in
  '(d, _) <- set_at m p ;;
  m <- m_put m p (CSet d (Some q)) ;;
  m <- global_load m q sp ;;
  Ok (mkM m (m_sets s)).
(** The search of GlobalGroupSpace.cpp:60-80 asks the centroids of groups for their envelopes (Distance.cpp:201-202). *)
Definition op_match (s : mst) (i : nat) (env : list (nat * nat)) : outcome mst :=
  p <- slot s i ;;
  '(_, g) <- set_at (m_mem s) p ;;
  match g with
  | None => UB NullDeref
  | Some q =>
      m <- for_each env (fun '(pos, k) m =>
             l <- global_at m q ;;
             match nth_error l pos with
             | Some (Some q1) =>
                 gl <- local_at m q1 ;;
                 match nth_error gl k with
                 | Some g => s <- group_at m g ;; '(m, s) <- series_envelope m s ;; m_put m g (CGroup s)
                 | None => UB OutOfBounds
                 end
             | _ => UB NullDeref
             end) (m_mem s) ;;
      Ok (mkM m (m_sets s))
  end.
(** TimeSeriesSet.cpp:301-308 *)
Definition op_PAA (s : mst) (i : nat) : outcome mst :=
  p <- slot s i ;;
  let '(m, a) := m_new (m_mem s) CArr in
  '(d, g) <- set_at m p ;;
  m <- m_free_opt m d ;;
  m <- m_put m p (CSet (Some a) g) ;;
  Ok (mkM m (m_sets s)).

Definition mstep (s : mst) (o : mop) : outcome mst :=
  match o with
  | MLoad r f => op_load s r f
  | MUnload i => op_unload s i
  | MUnloadAll => op_unloadAll s
  | MGroup i sp => op_group s i sp
  | MLoadGroup i sp => op_loadGroup s i sp
  | MMatch i e => op_match s i e
  | MPAA i => op_PAA s i
  | MIdle => Ok s
  end.
Definition mrun (s : mst) (l : list mop) : outcome mst := for_each l (fun o s => mstep s o) s.
(** The blocks that are allocated. *)
Definition live (m : mem) : list cell := flat_map (fun o => match o with Some c => [c] | None => [] end) m.
