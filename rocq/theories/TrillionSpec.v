(** * Specification for the UCR suite (C50): cumulative bounds, sorted copies, normalised windows. *)
From Coq Require Import ZArith Bool List.
From Verif Require Import Outcome Num Laws Spec.
Import ListNotations.
Open Scope Z_scope.

Section TrillionSpec.
Context (N : NumOps).
Local Notation T := (num N).

(** The cells of a path in rows (columns) [k], [k]+1, ... *)
Definition row_part (k : Z) (p : list (Z * Z)) : list (Z * Z) := filter (fun c => k <=? fst c) p.
Definition col_part (k : Z) (p : list (Z * Z)) : list (Z * Z) := filter (fun c => k <=? snd c) p.
(** [cb k] is not above the cost that any alignment has in rows >= k, or not above the cost that any has in columns >= k. *)
Definition valid_bound (a b : list T) (r : Z) (cb : list T) : Prop :=
  (forall k p, 0 <= k < zlen a -> warp_path r (zlen a - 1) (zlen b - 1) p -> le N (at_ N cb k) (path_cost N a b (row_part k p))) \/
  (forall k p, 0 <= k < zlen a -> warp_path r (zlen a - 1) (zlen b - 1) p -> le N (at_ N cb k) (path_cost N a b (col_part k p))).

(** [order] lists the positions 0 .. m-1 in some order. *)
Definition ordering (m : Z) (order : list Z) : Prop :=
  zlen order = m /\ NoDup order /\ Forall (fun o => 0 <= o < m) order.
(** [xo] is [x] in that order. *)
Definition sorted_copy (order : list Z) (x xo : list T) : Prop :=
  zlen xo = zlen order /\ forall i o, zget order i = Ok o -> zget xo i = zget x o.

(** At every position [o < m] the values of [x] at distance at most [r] (and below m) lie between [l] and [u]. *)
Definition encloses (m r : Z) (x l u : list T) : Prop :=
  m <= zlen x /\ m <= zlen l /\ m <= zlen u /\
  forall o k, 0 <= o < m -> 0 <= k < m -> Z.abs (o - k) <= r -> le N (at_ N l o) (at_ N x k) /\ le N (at_ N x k) (at_ N u o).

(** The window of [m] values of [t] from [j], with [mean] subtracted and divided by [std]. *)
Definition z_window (t : list T) (j m : Z) (mean std : T) : list T :=
  map (fun x => ndiv N (nsub N x mean) std) (zslice t j m).
End TrillionSpec.
