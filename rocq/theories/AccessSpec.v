(** * What a series contains, and which elements of two series are the same cell of memory. *)
From Coq Require Import ZArith List.
From Verif Require Import Outcome Num TimeSeries.
Import ListNotations.
Open Scope Z_scope.

Section AccessSpec.
Context (N : NumOps).
(** The series [t] is valid and has the values [v]. *)
Definition contents (h : heap N) (t : ts N) (v : list (num N)) : Prop := ts_read N h t = Ok v /\ zlen v = ts_len t.
(** Element [k] of [u] and element [i] of [t] are the same cell of a dataset's buffer. *)
Definition same_cell (u : ts N) (k : Z) (t : ts N) (i : Z) : Prop :=
  match ts_src u, ts_src t with
  | View b p, View c q => b = c /\ p + ts_start u + k = q + ts_start t + i
  | _, _ => False
  end.
(** [v] with element [i] replaced by [x]. *)
Definition updated (v : list (num N)) (i : Z) (x : num N) (v' : list (num N)) : Prop :=
  zlen v' = zlen v /\ zget v' i = Ok x /\ forall k, k <> i -> zget v' k = zget v k.
(** Pointwise sums. *)
Definition sums (v w s : list (num N)) : Prop :=
  zlen s = zlen v /\ forall k x y, zget v k = Ok x -> zget w k = Ok y -> zget s k = Ok (nadd N x y).
End AccessSpec.
