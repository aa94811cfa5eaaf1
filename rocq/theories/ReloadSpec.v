(** * Specification of saving and reloading groups in rounds.

    [grouped_earlier], [groups_now], [dataset], [wf], [quiet] and [sub_values] are defined in GroupSpec.v, [loaded_earlier] in
    LoadedSpec.v, [rereads] in GroupFileSpec.v. *)
From Coq Require Import ZArith SpecFloat String Ascii List.
From Verif Require Import Outcome Num Distance Text Dataset Groups Api GroupSpec GroupFileSpec LoadedSpec.
Import ListNotations.
Open Scope Z_scope.

Section ReloadSpec.
Context (writable : string -> bool).
Local Notation st := (st F64).

(** The groups [gm] of a dataset as pairs of the representative's values and the members. *)
Definition listed (data : list spec_float) (len L : Z) (gm : list (list coord)) : list (list spec_float * list coord) :=
  map (fun ms => (sub_values F64 data len L (hd (0, 0) ms), ms)) gm.
(** Dataset [i] of session [s], with the set [t] and the values [data], has for each length [L] the groups [f L], which were
    generated by grouping it or loaded from a file. *)
Definition with_groups (s : st) (i : Z) (t : tset) (data : list spec_float) (f : Z -> list (list spec_float * list coord)) : Prop :=
  (exists thr gmf, grouped_earlier F64 F64_IO writable s i thr t data /\ nltb F64 (ndiv F64 thr (f64_ofZ 2)) (ninf F64) = true /\
     forall L, 2 <= L <= set_len t -> groups_now F64 s i t data L (gmf L) /\ f L = listed data (set_len t) L (gmf L)) \/
  loaded_earlier writable s i t data f.
(** The threshold of dataset [i]. *)
Definition threshold_is (s : st) (i : Z) (thr : spec_float) : Prop := exists d, has_dataset F64 s i d /\ ds_thr F64 d = Some thr.

(** Saving the groups of dataset [i] in session [s] writes the file [file]. *)
Definition saves_to (s : st) (i : Z) (file : list ascii) : Prop :=
  exists p s1, step F64 F64_IO writable s (OpSaveGroup F64 i p false) = Done F64 s1 (VUnit F64) /\ st_files F64 s1 p = Some file.
(** Session [s] is reached from one where the groups of dataset [i], with the set [t] and the values [data], were loaded from
    the file [file], by any history of operations that do not change the dataset. *)
Definition loads_from (s : st) (i : Z) (t : tset) (data : list spec_float) (file : list ascii) : Prop :=
  exists s0 d p s1 v ops, wf F64 s0 /\ dataset F64 s0 i d data /\ ds_set F64 d = t /\ st_files F64 s0 p = Some file /\
    step F64 F64_IO writable s0 (OpLoadGroup F64 i p) = Done F64 s1 v /\ Forall (quiet F64 i) ops /\ run F64 F64_IO writable s1 ops = Some s.

(** The groups [gl'] are the groups [gl] with the members in reverse order and the representatives reread. *)
Definition resaved (gl gl' : list (list spec_float * list coord)) : Prop :=
  zlen gl' = zlen gl /\ forall k v cs v' cs', zget gl k = Ok (v, cs) -> zget gl' k = Ok (v', cs') -> cs' = rev cs /\ rereads 16 v v'.
(** The groups [gl'] are the groups [gl] with the same representatives and the members in any order. *)
Definition reordered (gl gl' : list (list spec_float * list coord)) : Prop :=
  zlen gl' = zlen gl /\ forall k v cs v' cs', zget gl k = Ok (v, cs) -> zget gl' k = Ok (v', cs') -> v' = v /\ forall p, In p cs' <-> In p cs.
End ReloadSpec.
