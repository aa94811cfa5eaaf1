(** * Histories of envelope requests and additions on series that do not share memory. *)
From Coq Require Import ZArith Bool List.
From Verif Require Import Outcome Num TimeSeries.
Import ListNotations.
Open Scope Z_scope.

Section CacheSpec.
Context (N : NumOps).
Local Notation T := (num N).

(** The two series do not share memory: one of them owns its values, or they look at different buffers or at disjoint
    parts of one. *)
Definition apart (t u : ts N) : Prop :=
  match ts_src t, ts_src u with
  | View b p, View c q => b <> c \/ p + ts_start t + ts_len t <= q + ts_start u \/ q + ts_start u + ts_len u <= p + ts_start t
  | _, _ => True
  end.
Definition all_apart (l : list (ts N)) : Prop :=
  forall i j t u, i <> j -> nth_error l i = Some t -> nth_error l j = Some u -> apart t u.

(** What a program does with the series: ask series [i] for its envelope, or add series [j] to series [i]. *)
Inductive cop : Type := CEnv (i : nat) (band : Z) | CPlus (i j : nat).
(** src/TimeSeries.cpp:70-99.  The addition throws only if the lengths differ, before it writes anything, and then the
    program goes on. *)
Definition cstep (s : heap N * list (ts N)) (o : cop) : option (heap N * list (ts N)) :=
  let '(h, l) := s in
  match o with
  | CEnv i band =>
      match nth_error l i with
      | Some t => match ts_envelope N h t band with Ok (t', _) => Some (h, list_set l i t') | Throw _ => Some (h, l) | _ => None end
      | None => None
      end
  | CPlus i j =>
      match nth_error l i, nth_error l j with
      | Some t, Some u => match ts_plus_assign N h t u with Ok (h', t') => Some (h', list_set l i t') | Throw _ => Some (h, l) | _ => None end
      | _, _ => None
      end
  end.
Fixpoint crun (s : heap N * list (ts N)) (ops : list cop) : option (heap N * list (ts N)) :=
  match ops with [] => Some s | o :: ops' => match cstep s o with Some s' => crun s' ops' | None => None end end.
End CacheSpec.
