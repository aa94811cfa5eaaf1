(** * Specification of matching against groups that were loaded from a file.

    [group_file], [sized], [members_exist] and [listed_once] are defined in GroupFileSpec.v; [dataset], [wf], [quiet] and [run]
    in GroupSpec.v and Api.v. *)
From Coq Require Import ZArith SpecFloat String List.
From Verif Require Import Outcome Num Distance Text Dataset Groups Api GroupSpec GroupFileSpec.
Import ListNotations.
Open Scope Z_scope.

(** Session [s'] is reached from a session where the groups of dataset [i], with the set [t] and the values [data], were
    loaded from a file with the groups [f], by any history of operations that do not change the dataset. *)
Definition loaded_earlier (writable : string -> bool) (s' : st F64) (i : Z) (t : tset) (data : list spec_float)
    (f : Z -> list (list spec_float * list coord)) : Prop :=
  exists s d p file thr name s1 v ops, wf F64 s /\ dataset F64 s i d data /\ ds_set F64 d = t /\
    st_files F64 s p = Some file /\ group_file file thr (set_count t) (set_len t) name f /\
    sized (set_len t) f /\ members_exist (set_count t) (set_len t) f /\ listed_once (set_len t) f /\
    step F64 F64_IO writable s (OpLoadGroup F64 i p) = Done F64 s1 v /\
    Forall (quiet F64 i) ops /\ run F64 F64_IO writable s1 ops = Some s'.

(** A series of length [L] is within reach of a query of length [n]: the lengths differ by at most the warping band. *)
Definition in_reach (ratio : spec_float) (n L : Z) : Prop :=
  exists r, calculateWarpingBandSize F64 ratio (Z.max n L) = Ok r /\ Z.abs (n - L) <= r.
