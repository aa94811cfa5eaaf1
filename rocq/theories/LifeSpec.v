(** * Specification of lifetimes: calls that free the array of a dataset. *)
From Coq Require Import ZArith String List.
From Verif Require Import Outcome Num TimeSeries Text Dataset Groups Api.
Import ListNotations.
Open Scope Z_scope.

Section Life.
Context (N : NumOps) (IO : NumIO N) (writable : string -> bool).

(** Calls after which the values of dataset [r] are no longer where they were: it is unloaded or reduced by PAA. *)
Definition frees (r : Z) (o : op N) : Prop :=
  o = OpUnload N r \/ o = OpUnloadAll N \/ exists n, o = OpPAA N r n.
(** Some call of the history is such a call, and returns. *)
Definition freed_in (r : Z) (σ : st N) (ops : list (op N)) : Prop :=
  exists pre o post s s' v, ops = pre ++ o :: post /\ run N IO writable σ pre = Some s /\ frees r o /\ step N IO writable s o = Done N s' v.
(** The array [b] is allocated in the session. *)
Definition allocated (σ : st N) (b : nat) : Prop := exists l, heap_get N (st_heap N σ) b = Ok l.
End Life.
