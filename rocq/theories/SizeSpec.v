(** * Specification of group files that hold only the sizes of the groups.

    [header], [reads] and [lengths] are defined in GroupFileSpec.v, [first_int] and [first_word] in NumSpec.v. *)
From Coq Require Import ZArith SpecFloat Ascii List.
From Verif Require Import Outcome Num DecSpec NumSpec GroupFileSpec.
Import ListNotations.
Open Scope Z_scope.

(** The sizes of length [L]: how many there are, and the sizes. *)
Definition reads_sizes (f : Z -> list Z) (t : list ascii) (L : Z) (r : list ascii) : Prop :=
  exists t1, first_int t (zlen (f L)) t1 /\ reads first_int t1 (f L) r.
(** [t] is a size file: the header, the first length 2 and the bound [len + 1], the name of the distance, for each length [L] the
    sizes [f L], and nothing else. *)
Definition size_file (t : list ascii) (thr : spec_float) (cnt len : Z) (name : list ascii) (f : Z -> list Z) : Prop :=
  exists r r1 r2 r3 r4, header t 1 thr cnt len r /\ first_int r 2 r1 /\ first_int r1 (len + 1) r2 /\ first_word r2 name r3 /\
    reads (reads_sizes f) r3 (lengths len) r4 /\ Forall white r4.
(** The sizes of a list of groups. *)
Definition sizes {A} (gl : list (A * list (Z * Z))) : list Z := map (fun g => zlen (snd g)) gl.
