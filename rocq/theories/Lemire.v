(** * Model of src/lib/trillionDTW.cpp:19-64 [lower_upper_lemire]. *)
From Coq Require Import ZArith Bool Lia List.
From Verif Require Import Outcome Num Deque.
Import ListNotations.
Open Scope Z_scope.

Section Lemire.
Context (N : NumOps).
Local Notation T := (num N).

(** An output array whose cells are uninitialised until written. *)
Definition uarray : Type := list (option T).

Record lem_state : Type := mkLem {
  lem_l : uarray;
  lem_u : uarray;
  lem_du : deque;
  lem_dl : deque
}.

(** trillionDTW.cpp:36-37 / 42-43: [while (!d.empty() && t[i] > t[d.back()]) d.pop_back();]
    ([gt] selects the comparison: [t[i] > .] for the upper, [t[i] < .] for the lower envelope).
    Each iteration removes an element, so size(d) iterations are enough. *)
Definition pop_while (t : list T) (ti : T) (gt : bool) (d : deque) : outcome deque :=
  while_ (Z.to_nat (dq_size d))
    (fun d => if dq_empty d then Ok false
              else b <- dq_back d ;;
                   tb <- zget t b ;;
                   Ok (if gt then nltb N tb ti else nltb N ti tb))
    dq_pop_back d.

(** Lines 30-31 / 54-55: [u[k] = t[du.front()]; l[k] = t[dl.front()];] *)
Definition emit (t : list T) (k : Z) (s : lem_state) : outcome lem_state :=
  fu <- dq_front (lem_du s) ;;
  tu <- zget t fu ;;
  u <- zset (lem_u s) k (Some tu) ;;
  fl <- dq_front (lem_dl s) ;;
  tl <- zget t fl ;;
  l <- zset (lem_l s) k (Some tl) ;;
  Ok (mkLem l u (lem_du s) (lem_dl s)).

(** Lines 27-51, body of the first loop. *)
Definition lem_body1 (t : list T) (r : Z) (i : Z) (s : lem_state) : outcome lem_state :=
  s <- (if r <? i then emit t (i - r - 1) s else Ok s) ;;
  ti <- zget t i ;;
  tp <- zget t (i - 1) ;;
  s <- (if nltb N tp ti
        then du <- dq_pop_back (lem_du s) ;;
             du <- pop_while t ti true du ;;
             Ok (mkLem (lem_l s) (lem_u s) du (lem_dl s))
        else dl <- dq_pop_back (lem_dl s) ;;
             dl <- pop_while t ti false dl ;;
             Ok (mkLem (lem_l s) (lem_u s) (lem_du s) dl)) ;;
  du <- dq_push_back (lem_du s) i ;;
  dl <- dq_push_back (lem_dl s) i ;;
  fu <- dq_front du ;;
  if i =? 2 * r + 1 + fu then
    Ok (mkLem (lem_l s) (lem_u s) (dq_pop_front du) dl)
  else
    fl <- dq_front dl ;;
    if i =? 2 * r + 1 + fl then
      Ok (mkLem (lem_l s) (lem_u s) du (dq_pop_front dl))
    else Ok (mkLem (lem_l s) (lem_u s) du dl).

(** Lines 52-63, body of the second loop (the diagnostic printf is omitted). *)
Definition lem_body2 (t : list T) (r : Z) (i : Z) (s : lem_state) : outcome lem_state :=
  s <- emit t (i - r - 1) s ;;
  fu <- dq_front (lem_du s) ;;
  let du := if 2 * r + 1 <=? i - fu then dq_pop_front (lem_du s) else lem_du s in
  fl <- dq_front (lem_dl s) ;;
  let dl := if 2 * r + 1 <=? i - fl then dq_pop_front (lem_dl s) else lem_dl s in
  Ok (mkLem (lem_l s) (lem_u s) du dl).

(** trillionDTW.cpp:19-64.  Returns the arrays [l] and [u], which are freshly allocated with [len]
    cells by TimeSeries::generateKeoghLU (src/TimeSeries.cpp:109-110); calculate() passes arrays that are at least as
    long and reads only the first [len] cells. *)
Definition lower_upper_lemire (t : list T) (r : Z) : outcome (uarray * uarray) :=
  let len := zlen t in
  du <- dq_push_back (dq_new (2 * r + 2)) 0 ;;
  dl <- dq_push_back (dq_new (2 * r + 2)) 0 ;;
  let s := mkLem (zrepeat None len) (zrepeat None len) du dl in
  s <- for_ 1 len (lem_body1 t r) s ;;
  s <- for_ len (len + r + 1) (lem_body2 t r) s ;;
  Ok (lem_l s, lem_u s).
End Lemire.
