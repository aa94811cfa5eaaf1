(** * Specification of the nearest-window search (C56), over real numbers. *)
From Coq Require Import ZArith Reals List.
From Verif Require Import Outcome Num RX Spec.
Import ListNotations.

(** Mean and standard deviation of a list of reals, as in a textbook. *)
Fixpoint rsum (l : list R) : R := match l with [] => 0%R | x :: l => (x + rsum l)%R end.
Definition rlen (l : list R) : R := IZR (zlen l).
Definition rmean (l : list R) : R := (rsum l / rlen l)%R.
Definition rsd (l : list R) : R := sqrt (rsum (map (fun x => (x - rmean l) * (x - rmean l))%R l) / rlen l).
(** The z-normalised list. *)
Definition znormal (l : list R) : list R := map (fun x => (x - rmean l) / rsd l)%R l.
(** Two values differ. *)
Definition varying (l : list R) : Prop := exists x y, In x l /\ In y l /\ x <> y.

Open Scope Z_scope.
(** The distance (squared, warping with half width [r]) between the window of [xs] at [k] and the query [ys], both z-normalised, is [C].
    There is none for a constant window. *)
Definition window_distance (xs ys : list R) (r k : Z) (C : R) : Prop :=
  varying (zslice xs k (zlen ys)) /\
  dtw_cost RX (map Fin (znormal (zslice xs k (zlen ys)))) (map Fin (znormal ys)) r (Fin C).
(** [loc], [B]: the first of the windows at 0, ..., K-1 with the least distance, if one is below 1e20; otherwise 0 and 1e20. *)
Definition nearest (xs ys : list R) (r K loc : Z) (B : R) : Prop :=
  (forall k C, 0 <= k < K -> window_distance xs ys r k C -> (B <= C)%R) /\
  ((B = IZR (10 ^ 20) /\ loc = 0) \/
   ((B < IZR (10 ^ 20))%R /\ 0 <= loc < K /\ window_distance xs ys r loc B /\
    forall k C, 0 <= k < loc -> window_distance xs ys r k C -> (B < C)%R)).
