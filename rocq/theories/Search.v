(** * Model of calculate (src/lib/trillionDTW.cpp:245-572): the search of the UCR suite.

    Not modelled: the counters of pruned windows, the messages on the terminal and the clock; a file that does not exist or an
    allocation that fails (error() ends the process).  The long long and int counters are unbounded here. *)
From Coq Require Import ZArith Bool Lia List.
From Verif Require Import Outcome Num Lemire Trillion.
Import ListNotations.
Open Scope Z_scope.

Section Search.
Context (N : NumOps).
Local Notation T := (num N).

(** A file seen through fscanf(f, "%lf", &d): the numbers it starts with; then its end or, if [f_bad], something else. *)
Record nfile : Type := mkNFile { f_vals : list T; f_bad : bool }.
(** fscanf(f, "%lf", &d): [None] if it returns EOF; otherwise the variable [d] and the rest of the file.  On a character that does
    not start a number it returns 0, leaves [d] as it is and does not advance. *)
Definition scan (f : nfile) (d : option T) : option (option T * nfile) :=
  match f_vals f with
  | x :: l => Some (Some x, mkNFile l (f_bad f))
  | [] => if f_bad f then Some (d, f) else None
  end.

(** Lines 354-360: [while (fscanf(qp,"%lf",&d) != EOF && i < m)]; [n] = m - i.  Returns q, ex, ex2 and d. *)
Fixpoint read_query (n : nat) (f : nfile) (d : option T) (q : list T) (ex ex2 : T) : outcome (list T * T * T * option T) :=
  match scan f d with
  | None => Ok (q, ex, ex2, d)
  | Some (d, f) =>
    match n with
    | O => Ok (q, ex, ex2, d)
    | S n => match d with
             | None => UB Uninit
             | Some x => read_query n f d (q ++ [x]) (nadd N ex x) (nadd N ex2 (nmul N x x))
             end
    end
  end.

(** Up to [n] values as read by lines 411-413 and 422-427 (which write them to consecutive cells of buffer). *)
Fixpoint read_n (n : nat) (f : nfile) (d : option T) : outcome (list T * nfile * option T) :=
  match n with
  | O => Ok ([], f, d)
  | S n => match scan f d with
           | None => Ok ([], f, d)
           | Some (None, _) => UB Uninit
           | Some (Some x, f) => '(l, f, d) <- read_n n f (Some x);; Ok (x :: l, f, d)
           end
  end.

(** Reading every cell of an array. *)
Fixpoint read_all (l : list (option T)) : outcome (list T) :=
  match l with
  | [] => Ok []
  | None :: _ => UB Uninit
  | Some x :: l => l <- read_all l;; Ok (x :: l)
  end.
(** Lines 383-389: [x[order[i]]] for each i. *)
Fixpoint gather (x : list T) (order : list Z) : outcome (list T) :=
  match order with
  | [] => Ok []
  | o :: order => v <- zget x o;; l <- gather x order;; Ok (v :: l)
  end.

(** Lines 364-366 and 460-462: mean and standard deviation from the sum and the sum of squares. *)
Definition mean_of (ex : T) (m : Z) : T := ndiv N ex (nofZ N m).
Definition std_of (ex ex2 : T) (m : Z) : T := nsqrt N (nsub N (ndiv N ex2 (nofZ N m)) (nmul N (mean_of ex m) (mean_of ex m))).

(** Index::diff (src/lib/util.cpp:46-49), which qsort uses to compare two values of the query: a difference of doubles converted to int.
    Only its values are modelled; the order that qsort makes of it is the argument [sort] below. *)
Definition index_diff (x y : T) : outcome Z :=
  let d := nsub N (nabs N y) (nabs N x) in
  if nltb N d (nzero N) then z <- floor_int N (nsub N (nabs N x) (nabs N y));; Ok (- z) else floor_int N d.
(** The query as the main loop uses it: q, its sorted copy and its sorted envelope (350-389). *)
Record query : Type := mkQuery { qu_q : list T; qu_order : list Z; qu_qo : list T; qu_lo : list T; qu_uo : list T }.
(** [sort]: the positions of the query in the order that qsort leaves them in (375-380); an external function. *)
Definition prepare (sort : list T -> list Z) (f : nfile) (m r : Z) : outcome (query * option T) :=
  '(q, ex, ex2, d) <- read_query (Z.to_nat m) f None [] (nzero N) (nzero N);;
  if zlen q <? m then UB Uninit else
  let q := map (znorm N (mean_of ex m) (std_of ex ex2 m)) q in
  '(l, u) <- lower_upper_lemire N q r;;
  l <- read_all l;;
  u <- read_all u;;
  let order := sort q in
  qo <- gather q order;;
  uo <- gather u order;;
  lo <- gather l order;;
  Ok (mkQuery q order qo lo uo, d).

(** Best distance so far and its location. *)
Record best : Type := mkBest { b_bsf : T; b_loc : Z }.
(** Body of the loop over i (442-527).  State: ex, ex2, the circular array t, the arrays of one window, the best so far.
    [base] = it*(EPOCH-m+1); [l], [u]: l_buff, u_buff. *)
Definition pstate : Type := T * T * list T * scratch N * best.
Definition p_step (qy : query) (m r base : Z) (buffer l u : list T) (i : Z) (s : pstate) : outcome pstate :=
  let '(ex, ex2, t, w, b) := s in
  d <- zget buffer i;;
  let ex := nadd N ex d in
  let ex2 := nadd N ex2 (nmul N d d) in
  t <- zset t (i mod m) d;;
  t <- zset t (i mod m + m) d;;
  if m - 1 <=? i then
    let mean := mean_of ex m in
    let std := std_of ex ex2 m in
    let j := (i + 1) mod m in
    let I := i - (m - 1) in
    '(res, w) <- t_window N t (qu_q qy) (qu_order qy) (qu_qo qy) (qu_uo qy) (qu_lo qy) (skipn (Z.to_nat I) l) (skipn (Z.to_nat I) u)
                   j m r mean std (b_bsf b) w;;
    let b := match res with
             | Some dist => if nltb N dist (b_bsf b) then mkBest dist (base + i - m + 1) else b
             | None => b
             end in
    x <- zget t j;;
    Ok (nsub N ex x, nsub N ex2 (nmul N x x), t, w, b)
  else Ok (ex, ex2, t, w, b).
(** Lines 434-527: one chunk.  [t] keeps its content from chunk to chunk; every cell is written before it is read, so the model
    starts with zeros (likewise for the arrays of [scratch]; cb, cb1 and cb2 are set to 0 by 393-397). *)
Definition chunk (qy : query) (m r base : Z) (buffer : list T) (t : list T) (w : scratch N) (b : best) : outcome (list T * scratch N * best) :=
  '(l, u) <- lower_upper_lemire N buffer r;;
  l <- read_all l;;
  u <- read_all u;;
  '(_, _, t, w, b) <- for_ 0 (zlen buffer) (p_step qy m r base buffer l u) (nzero N, nzero N, t, w, b);;
  Ok (t, w, b).

(** What is printed (560-562): the location, the distance (before the square root) and the number of points scanned. *)
Record found : Type := mkFound { fo_loc : Z; fo_bsf : T; fo_scanned : Z }.
(** The loop over chunks (406-535), at most [fuel] of them.  [buffer]: the cells of the previous chunk. *)
Fixpoint chunks (fuel : nat) (epoch : Z) (qy : query) (m r it : Z) (f : nfile) (d : option T) (buffer t : list T) (w : scratch N) (b : best) : outcome found :=
  match fuel with
  | O => NoFuel
  | S fuel =>
    '(head, f, d) <- (if it =? 0 then read_n (Z.to_nat (m - 1)) f d else Ok (zslice buffer (epoch - m + 1) (m - 1), f, d));;
    if epoch <? zlen head then UB OutOfBounds else
    '(tail, f, d) <- read_n (Z.to_nat (epoch - (m - 1))) f d;;
    let ep := m - 1 + zlen tail in
    let base := it * (epoch - m + 1) in
    if zlen tail =? 0 then Ok (mkFound (b_loc b) (b_bsf b) (base + ep)) else
    let buffer := head ++ tail in
    '(t, w, b) <- chunk qy m r base buffer t w b;;
    if ep <? epoch then Ok (mkFound (b_loc b) (b_bsf b) (base + ep))
    else chunks fuel epoch qy m r (it + 1) f d buffer t w b
  end.

(** calculate, with EPOCH = [epoch] (100000 in the code, 266). *)
Definition calculate (fuel : nat) (epoch : Z) (sort : list T -> list Z) (data query : nfile) (m r : Z) : outcome found :=
  '(qy, d) <- prepare sort query m r;;
  let z := zrepeat (nzero N) m in
  chunks fuel epoch qy m r 0 data d [] (zrepeat (nzero N) (2 * m)) (mkScratch N z z z z) (mkBest (big N) 0).
End Search.
