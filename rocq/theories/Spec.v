(** * Specifications, independent of the model of the code.

    Plain mathematical notions used in the statements of the properties: positions of a series, window
    minimum and maximum, warping paths and their cost. *)
From Coq Require Import ZArith Bool Lia List.
From Verif Require Import Outcome Num.
Import ListNotations.
Open Scope Z_scope.

Section Spec.
Context (N : NumOps).
Local Notation T := (num N).

(** Value at position [i] of a series (0 outside). *)
Definition at_ (a : list T) (i : Z) : T := nth (Z.to_nat i) a (nzero N).

(** The length of a series; it fits the int arithmetic of the code. *)
Definition len_ok (a : list T) : Prop := zlen a <= 2 ^ 30.

(** [v] is a minimum / maximum of the values at positions [lo..hi]: one of them, and none is below /
    above it. *)
Definition is_window_min (a : list T) (lo hi : Z) (v : T) : Prop :=
  (exists k, lo <= k <= hi /\ v = at_ a k) /\
  (forall k, lo <= k <= hi -> nltb N (at_ a k) v = false).
Definition is_window_max (a : list T) (lo hi : Z) (v : T) : Prop :=
  (exists k, lo <= k <= hi /\ v = at_ a k) /\
  (forall k, lo <= k <= hi -> nltb N v (at_ a k) = false).

(** ** Warping paths. *)

(** One step of a warping path: down, right or diagonal. *)
Definition warp_step (i j i' j' : Z) : Prop :=
  (i' = i + 1 /\ j' = j) \/ (i' = i /\ j' = j + 1) \/ (i' = i + 1 /\ j' = j + 1).

(** [warp_path r i j p]: [p] is a path of cells from (0,0) to (i,j) inside the Sakoe-Chiba band of
    half width [r] (every cell (x,y) has |x - y| <= r). *)
Inductive warp_path (r : Z) : Z -> Z -> list (Z * Z) -> Prop :=
| path_start : warp_path r 0 0 [(0, 0)]
| path_step : forall i j p i' j',
    warp_path r i j p -> warp_step i j i' j' -> Z.abs (i' - j') <= r ->
    warp_path r i' j' (p ++ [(i', j')]).

(** Squared differences accumulated along a path, from its start. *)
Definition path_cost (a b : list T) (p : list (Z * Z)) : T :=
  fold_left (fun acc c => nadd N acc (sqd N (at_ a (fst c)) (at_ b (snd c)))) p (nzero N).

(** [C] is the least cost of a path to (i,j). *)
Definition least_cost (a b : list T) (r i j : Z) (C : T) : Prop :=
  (exists p, warp_path r i j p /\ path_cost a b p = C) /\
  (forall p, warp_path r i j p -> nltb N (path_cost a b p) C = false).

(** [C] is the optimal cost of aligning [a] with [b] within the band; infinity if no path exists. *)
Definition dtw_cost (a b : list T) (r : Z) (C : T) : Prop :=
  least_cost a b r (zlen a - 1) (zlen b - 1) C \/
  ((forall p, ~ warp_path r (zlen a - 1) (zlen b - 1) p) /\ C = ninf N).

(** No path inside the band accumulates an infinite cost. *)
Definition no_overflow (a b : list T) (r : Z) : Prop :=
  forall i j p, i < zlen a -> j < zlen b -> warp_path r i j p ->
    nltb N (path_cost a b p) (ninf N) = true.

(** Sum of squared differences, accumulated from the first position. *)
Definition sum_sq (a b : list T) : T :=
  fold_left (fun acc c => nadd N acc (sqd N (fst c) (snd c))) (combine a b) (nzero N).
End Spec.

(** ** A queue of at most [cap] ints: first element = front. *)
Inductive qop : Type := QPush (v : Z) | QPopFront | QPopBack.
(** [None]: an operation that is not allowed (pushing into a full queue, popping an empty one). *)
Definition q_step (cap : Z) (o : qop) (l : list Z) : option (list Z) :=
  match o with
  | QPush v => if zlen l <? cap then Some (l ++ [v]) else None
  | QPopFront => match l with [] => None | _ :: l' => Some l' end
  | QPopBack => match l with [] => None | _ => Some (removelast l) end
  end.
Fixpoint q_run (cap : Z) (ops : list qop) (l : list Z) : option (list Z) :=
  match ops with
  | [] => Some l
  | o :: ops' => match q_step cap o l with Some l' => q_run cap ops' l' | None => None end
  end.
