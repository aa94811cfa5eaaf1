(** * Model of src/GroupableTimeSeriesSet.{hpp,cpp} and src/OnexAPI.{hpp,cpp}: the session state
    and the public operations. *)
From Coq Require Import ZArith Bool Lia List Ascii String.
From Verif Require Import Outcome Num Lemire Distance TimeSeries Text Dataset Groups.
Import ListNotations.
Open Scope Z_scope.

Section Api.
Context (N : NumOps) (IO : NumIO N).
(** Which paths can be opened for writing. *)
Context (writable : string -> bool).
Local Notation T := (num N).
Local Notation heap := (heap N).
Local Notation ts := (ts N).

(** GroupableTimeSeriesSet.hpp:61-62 on top of a TimeSeriesSet.  [ds_groups = None]:
    groupsAllLengthSet == nullptr.  [ds_thr = None]: threshold not yet assigned. *)
Record dset : Type := mkDS {
  ds_set : tset;
  ds_groups : option (gspace N);
  ds_thr : option T
}.

(** The whole session: OnexAPI.hpp:146-147 (loadedDatasets, datasetCount), Distance.cpp:126
    (warpingBandRatio), LocalLengthGroupSpace.cpp:46 ([st_logged]: whether _last_time has been set),
    the buffers and the files. *)
Record st : Type := mkSt {
  st_heap : heap;
  st_sets : list (option dset);
  st_count : Z;
  st_ratio : T;
  st_logged : bool;
  st_files : string -> option text
}.

(** The start of a process: no dataset, ratio 0.1 (Distance.cpp:126). *)
Definition st_init (files : string -> option text) : st :=
  mkSt [] [] 0 (ndiv N (nofZ N 1) (nofZ N 10)) false files.

(** OnexAPI.hpp dataset_info_t *)
Record info : Type := mkInfo {
  i_id : Z; i_name : string; i_count : Z; i_length : Z; i_grouped : bool; i_normalized : bool
}.

(** Values returned by API calls. *)
Inductive value : Type :=
| VUnit | VInt (z : Z) | VInfo (i : info) | VInfos (l : list info)
| VPair (x y : T) | VCand (c : candidate N).

(** Result of an API call: the new session and the returned value or the exception. *)
Inductive res : Type :=
| Done (s : st) (v : value)
| Exn (s : st) (e : exn)
| Bad (u : ub)      (* undefined behaviour *)
| Hang.             (* endless loop *)

(** An exception leaves session [s]. *)
Definition lift {A} (s : st) (o : outcome A) (k : A -> res) : res :=
  match o with
  | Ok a => k a
  | Throw e => Exn s e
  | UB u => Bad u
  | NoFuel => Hang
  end.

Definition with_heap (s : st) (h : heap) : st :=
  mkSt h (st_sets s) (st_count s) (st_ratio s) (st_logged s) (st_files s).
Definition with_sets (s : st) (l : list (option dset)) : st :=
  mkSt (st_heap s) l (st_count s) (st_ratio s) (st_logged s) (st_files s).
Definition with_count (s : st) (c : Z) : st :=
  mkSt (st_heap s) (st_sets s) c (st_ratio s) (st_logged s) (st_files s).
Definition with_logged (s : st) (b : bool) : st :=
  mkSt (st_heap s) (st_sets s) (st_count s) (st_ratio s) b (st_files s).
Definition with_file (s : st) (p : string) (t : text) : st :=
  mkSt (st_heap s) (st_sets s) (st_count s) (st_ratio s) (st_logged s)
       (fun q => if String.eqb q p then Some t else st_files s q).
(** Replace dataset [i]. *)
Definition put_set (s : st) (i : Z) (d : option dset) : st :=
  with_sets s (list_set (st_sets s) (Z.to_nat i) d).

(** OnexAPI.cpp:157-163 [_checkDatasetIndex] *)
Definition checkDatasetIndex (s : st) (i : Z) : outcome dset :=
  if (i <? 0) || (zlen (st_sets s) <=? i) then
    Throw (OnexExn "There is no dataset with given index")
  else match nth_error (st_sets s) (Z.to_nat i) with
       | Some (Some d) => Ok d
       | _ => Throw (OnexExn "There is no dataset with given index")
       end.

(** GroupableTimeSeriesSet.cpp:37-40 *)
Definition isGrouped (d : dset) : bool :=
  match ds_groups d with Some _ => true | None => false end.

(** OnexAPI.cpp:85-96 *)
Definition info_of (i : Z) (d : dset) : info :=
  mkInfo i (set_path (ds_set d)) (set_count (ds_set d)) (set_len (ds_set d)) (isGrouped d)
         (set_norm (ds_set d)).
Definition getDatasetInfo (s : st) (i : Z) : outcome info :=
  d <- checkDatasetIndex s i ;; Ok (info_of i d).

(** OnexAPI.cpp:30-43: the first empty slot, or the end. *)
Fixpoint first_free (l : list (option dset)) : nat :=
  match l with
  | [] => O
  | None :: _ => O
  | Some _ :: l' => S (first_free l')
  end.

(** OnexAPI.cpp:17-49 [loadDataset].  The new set is deleted when loading throws; the buffer
    allocated meanwhile is not recorded in the heap. *)
Definition api_load (s : st) (path : string) (maxNumRow startCol : Z) (seps : text) : res :=
  match st_files s path with
  | None => Exn s (OnexExn ("Cannot open " ++ path)%string)
  | Some contents =>
      lift s (loadData N IO contents maxNumRow startCol seps) (fun '(data, count, len) =>
        let '(h, b) := match data with
                       | Some l => let '(h, b) := halloc N (st_heap s) l in (h, Some b)
                       | None => (st_heap s, None)
                       end in
        let d := mkDS (mkSet b len count path false) None None in
        let n := first_free (st_sets s) in
        let sets := if (n <? List.length (st_sets s))%nat then list_set (st_sets s) n (Some d)
                    else st_sets s ++ [Some d] in
        let s' := with_count (with_sets (with_heap s h) sets) (st_count s + 1) in
        lift s' (getDatasetInfo s' (Z.of_nat n)) (fun i => Done s' (VInfo i)))
  end.

(** OnexAPI.cpp:51-55 with TimeSeriesSet.cpp:167-182. *)
Definition api_save (s : st) (i : Z) (path : string) (separator : ascii) : res :=
  lift s (checkDatasetIndex s i) (fun d =>
    if negb (writable path) then Exn s (OnexExn ("Cannot open " ++ path)%string)
    else lift s (saveData N IO (st_heap s) (ds_set d) separator) (fun t =>
           Done (with_file s path t) VUnit)).

(** OnexAPI.cpp:57-68 *)
Definition api_unload (s : st) (i : Z) : res :=
  lift s (checkDatasetIndex s i) (fun d =>
    let sets := if i =? zlen (st_sets s) - 1 then removelast (st_sets s)
                else list_set (st_sets s) (Z.to_nat i) None in
    let h := hfree N (st_heap s) (set_buf (ds_set d)) in
    Done (with_count (with_sets (with_heap s h) sets) (st_count s - 1)) VUnit).

(** OnexAPI.cpp:70-78 *)
Definition api_unloadAll (s : st) : res :=
  let h := fold_left (fun h o => match o with
                                 | Some d => hfree N h (set_buf (ds_set d))
                                 | None => h
                                 end) (st_sets s) (st_heap s) in
  Done (with_count (with_sets (with_heap s h) []) 0) VUnit.

(** OnexAPI.cpp:80-83 *)
Definition api_count (s : st) : res := Done s (VInt (st_count s)).

(** OnexAPI.cpp:85-96 *)
Definition api_info (s : st) (i : Z) : res := lift s (getDatasetInfo s i) (fun x => Done s (VInfo x)).

(** OnexAPI.cpp:98-109 *)
Fixpoint all_infos (i : Z) (l : list (option dset)) : list info :=
  match l with
  | [] => []
  | Some d :: l' => info_of i d :: all_infos (i + 1) l'
  | None :: l' => all_infos (i + 1) l'
  end.
Definition api_allInfo (s : st) : res := Done s (VInfos (all_infos 0 (st_sets s))).

(** OnexAPI.cpp:111-115 *)
Definition api_normalize (s : st) (i : Z) : res :=
  lift s (checkDatasetIndex s i) (fun d =>
    lift s (normalize N (st_heap s) (ds_set d)) (fun '(h, set, (mn, mx)) =>
      Done (put_set (with_heap s h) i (Some (mkDS set (ds_groups d) (ds_thr d)))) (VPair mn mx))).

(** OnexAPI.cpp:117-121 with GroupableTimeSeriesSet.cpp:21-35.  [clock l] says whether 10 seconds have
    passed since the last log message when length [l] is processed; the very first call in a
    process always logs because _last_time starts at the epoch.  If grouping throws, the old groups are
    gone and the new, empty, space is in place. *)
Definition api_group (s : st) (i : Z) (threshold : T) (clock : Z -> bool) : res :=
  lift s (checkDatasetIndex s i) (fun d =>
    if negb (isLoaded (ds_set d)) then Exn s (OnexExn "No data to group")
    else
      let clock l := clock l || (negb (st_logged s) && (l =? 2)) in
      match global_group N (st_heap s) (st_ratio s) (ds_set d) "euclidean" threshold clock with
      | Ok (gs, n) =>
          let s' := put_set s i (Some (mkDS (ds_set d) (Some gs) (Some threshold))) in
          let s' := if 2 <=? set_len (ds_set d) then with_logged s' true else s' in
          Done s' (VInt n)
      | Throw e =>
          Exn (put_set s i (Some (mkDS (ds_set d)
                 (Some (mkGS N [] "euclidean" (Some DPairwise))) (ds_thr d)))) e
      | UB u => Bad u
      | NoFuel => Hang
      end).

(** OnexAPI.cpp:123-127 with GroupableTimeSeriesSet.cpp:48-68. *)
Definition api_saveGroup (s : st) (i : Z) (path : string) (groupSizeOnly : bool) : res :=
  lift s (checkDatasetIndex s i) (fun d =>
    match ds_groups d with
    | None => Exn s (OnexExn "No group found")
    | Some gs =>
        if negb (writable path) then Exn s (OnexExn "Cannot open file")
        else
          lift s (init (ds_thr d)) (fun thr =>
            let header := print_Z 1 ++ [sp] ++ io_print IO 6 thr ++ [sp] ++
                          print_Z (set_count (ds_set d)) ++ [sp] ++
                          print_Z (set_len (ds_set d)) ++ [nl] in
            lift s (global_saveGroups N IO (st_heap s) gs groupSizeOnly) (fun t =>
              Done (with_file s path (header ++ t)) VUnit))
    end).

(** GroupableTimeSeriesSet.cpp:76-90: reading and checking the header; an extraction that stores
    nothing leaves the variable uninitialised.  Returns the stream and the threshold (which may be
    uninitialised only if the stream failed before, in which case the item count is as well). *)
Definition load_header (s : tset) (fin : istream) : outcome (istream * option T) :=
  let '(fin, version) := extract conv_int fin in
  let '(fin, threshold) := extract (io_conv IO) fin in
  let '(fin, cnt) := extract conv_int fin in
  let '(fin, len) := extract conv_int fin in
  version <- init version ;;
  if negb (version =? 1) then Throw (OnexExn "Incompatible file version")
  else
    cnt <- init cnt ;;
    if negb (cnt =? set_count s) then Throw (OnexExn "Incompatible item count")
    else
      len <- init len ;;
      if negb (len =? set_len s) then Throw (OnexExn "Incompatible item length")
      else Ok (fin, threshold).

(** OnexAPI.cpp:129-133 with GroupableTimeSeriesSet.cpp:70-102. *)
Definition api_loadGroup (s : st) (i : Z) (path : string) : res :=
  lift s (checkDatasetIndex s i) (fun d =>
    match st_files s path with
    | None => Exn s (OnexExn "Cannot open file")
    | Some contents =>
        lift s (load_header (ds_set d) (mkIS contents false)) (fun '(fin, thr) =>
          lift s (global_loadGroups N IO (ds_set d) fin) (fun '(gs, r) =>
            let s' := put_set s i (Some (mkDS (ds_set d) (Some gs) thr)) in
            match r with
            | inl n => Done s' (VInt n)
            | inr e => Exn s' e
            end))
    end).

(** OnexAPI.cpp:135-138 *)
Definition api_setRatio (s : st) (ratio : T) : res :=
  Done (mkSt (st_heap s) (st_sets s) (st_count s) ratio (st_logged s) (st_files s)) VUnit.

(** OnexAPI.cpp:140-147 with GroupableTimeSeriesSet.cpp:104-111. *)
Definition api_match (s : st) (result_idx query_idx index start end_ : Z) : res :=
  lift s (checkDatasetIndex s result_idx) (fun d =>
    lift s (checkDatasetIndex s query_idx) (fun q =>
      lift s (getTimeSeries N (ds_set q) index start end_) (fun query =>
        match ds_groups d with
        | None => Exn s (OnexExn "Dataset is not grouped")
        | Some gs =>
            lift s (global_getBestMatch N (st_heap s) (st_ratio s) (ds_set d) gs query)
              (fun '(gs, c) =>
                 Done (put_set s result_idx (Some (mkDS (ds_set d) (Some gs) (ds_thr d)))) (VCand c))
        end))).

(** OnexAPI.cpp:149-154 *)
Definition api_PAA (s : st) (i : Z) (n : Z) : res :=
  lift s (checkDatasetIndex s i) (fun d =>
    lift s (PAA N (st_heap s) (ds_set d) n) (fun '(h, set) =>
      let d' := mkDS set (ds_groups d) (ds_thr d) in
      Done (put_set (with_heap s h) i (Some d')) (VInfo (info_of i d')))).

(** ** The operations as data, and histories. *)
Inductive op : Type :=
| OpLoad (path : string) (maxNumRow startCol : Z) (seps : text)
| OpSave (i : Z) (path : string) (separator : ascii)
| OpUnload (i : Z)
| OpUnloadAll
| OpCount
| OpInfo (i : Z)
| OpAllInfo
| OpNormalize (i : Z)
| OpGroup (i : Z) (threshold : T) (clock : Z -> bool)
| OpSaveGroup (i : Z) (path : string) (groupSizeOnly : bool)
| OpLoadGroup (i : Z) (path : string)
| OpSetRatio (r : T)
| OpMatch (result_idx query_idx index start end_ : Z)
| OpPAA (i n : Z).

Definition step (s : st) (o : op) : res :=
  match o with
  | OpLoad p m c sep => api_load s p m c sep
  | OpSave i p c => api_save s i p c
  | OpUnload i => api_unload s i
  | OpUnloadAll => api_unloadAll s
  | OpCount => api_count s
  | OpInfo i => api_info s i
  | OpAllInfo => api_allInfo s
  | OpNormalize i => api_normalize s i
  | OpGroup i t c => api_group s i t c
  | OpSaveGroup i p b => api_saveGroup s i p b
  | OpLoadGroup i p => api_loadGroup s i p
  | OpSetRatio r => api_setRatio s r
  | OpMatch r q i a b => api_match s r q i a b
  | OpPAA i n => api_PAA s i n
  end.

(** The session after a call that did not have undefined behaviour or hang. *)
Definition after (r : res) : option st :=
  match r with Done s _ | Exn s _ => Some s | Bad _ | Hang => None end.

(** Running a history; exceptions are caught by the caller, which goes on. *)
Fixpoint run (s : st) (l : list op) : option st :=
  match l with
  | [] => Some s
  | o :: l' => match after (step s o) with Some s' => run s' l' | None => None end
  end.
End Api.
