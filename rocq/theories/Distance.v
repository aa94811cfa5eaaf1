(** * Model of src/distance/Distance.cpp on series given by their values. *)
From Coq Require Import ZArith Bool Lia List String.
From Verif Require Import Outcome Num Lemire.
Import ListNotations.
Open Scope Z_scope.

Section Distance.
Context (N : NumOps).
Local Notation T := (num N).

(** src/TimeSeries.cpp:62-68 [TimeSeries::operator[]] on the values of the series: range-checked. *)
Definition ts_at (a : list T) (i : Z) : outcome T :=
  if (i <? 0) || (zlen a <=? i) then Throw (OnexExn "Data point index is out of range")
  else zget a i.

(** Distance.cpp:132-136.  [length * warpingBandRatio] converts the int to double. *)
Definition calculateWarpingBandSize (ratio : T) (length : Z) : outcome Z :=
  bandSize <- floor_int N (nmul N (nofZ N length) ratio) ;;
  Ok (Z.min bandSize (length - 1)).

(** Distance.cpp:36-39 *)
Definition euc_norm (total : T) (maxlen : Z) : T :=
  nsqrt N (ndiv N total (nofZ N maxlen)).
(** Distance.cpp:41-44 *)
Definition euc_inorm (dropout : T) (maxlen : Z) : T :=
  nmul N (nmul N dropout dropout) (nofZ N maxlen).
(** Distance.cpp:46-49 *)
Definition euc_norm_dtw (total : T) (maxlen : Z) : T :=
  ndiv N (nsqrt N total) (nofZ N (2 * maxlen)).
(** Distance.cpp:51-54 *)
Definition euc_inorm_dtw (dropout : T) (maxlen : Z) : T :=
  let x := nmul N (nmul N dropout (nofZ N 2)) (nofZ N maxlen) in nmul N x x.

(** vector< vector<data_t> > cost; element access and update. *)
Definition matrix : Type := list (list T).
Definition mget (c : matrix) (i j : Z) : outcome T := row <- zget c i ;; zget row j.
Definition mset (c : matrix) (i j : Z) (v : T) : outcome matrix :=
  row <- zget c i ;; row <- zset row j v ;; zset c i row.

(** Distance.cpp:94-114, body of the inner loop; the state is (cost, bestSoFar). *)
Definition dtw_cell (a b : list T) (r i j : Z) (s : matrix * T) : outcome (matrix * T) :=
  let '(cost, bestSoFar) := s in
  if j =? 0 then
    c <- mget cost i j ;;
    Ok (cost, smin N bestSoFar c)
  else
    ij1 <- (if (i - r <=? j - 1) && (j - 1 <=? i + r) then mget cost i (j - 1) else Ok (ninf N)) ;;
    i1j1 <- mget cost (i - 1) (j - 1) ;;
    i1j <- (if (j - r <=? i - 1) && (i - 1 <=? j + r) then mget cost (i - 1) j else Ok (ninf N)) ;;
    minPrev <- mget cost (i - 1) j ;;
    minPrev <- (if nltb N i1j1 ij1 && nltb N i1j1 i1j then mget cost (i - 1) (j - 1)
                else if nltb N ij1 i1j then mget cost i (j - 1)
                else Ok minPrev) ;;
    ai <- ts_at a i ;;
    bj <- ts_at b j ;;
    let v := nadd N minPrev (sqd N ai bj) in
    cost <- mset cost i j v ;;
    Ok (cost, smin N bestSoFar v).

(** Distance.cpp:91-121, body of the outer loop; the state is (cost, dropped). *)
Definition dtw_row (a b : list T) (r : Z) (idropout : T) (i : Z) (s : matrix * bool)
  : outcome (ctl (matrix * bool)) :=
  let '(cost, dropped) := s in
  '(cost, bestSoFar) <-
     for_ (Z.max (i - r) 0) (Z.min (i + r) (zlen b - 1) + 1) (dtw_cell a b r i) (cost, ninf N) ;;
  if nltb N idropout bestSoFar then Ok (Break (cost, true)) else Ok (Next (cost, dropped)).

(** Distance.cpp:77-87: the first column and the first row. *)
Definition dtw_col (a b : list T) (i : Z) (cost : matrix) : outcome matrix :=
  p <- mget cost (i - 1) 0 ;;
  ai <- ts_at a i ;;
  b0 <- ts_at b 0 ;;
  mset cost i 0 (nadd N p (sqd N ai b0)).
Definition dtw_row0 (a b : list T) (j : Z) (cost : matrix) : outcome matrix :=
  p <- mget cost 0 (j - 1) ;;
  a0 <- ts_at a 0 ;;
  bj <- ts_at b j ;;
  mset cost 0 j (nadd N p (sqd N a0 bj)).

(** Distance.cpp:56-124 *)
Definition warpedDistance (ratio : T) (a b : list T) (dropout : T) : outcome T :=
  let m := zlen a in
  let n := zlen b in
  r <- calculateWarpingBandSize ratio (Z.max m n) ;;
  let idropout := euc_inorm_dtw dropout (Z.max m n) in
  if (m =? 1) && (n =? 1) then
    a0 <- ts_at a 0 ;;
    b0 <- ts_at b 0 ;;
    Ok (euc_norm_dtw (sqd N a0 b0) (Z.max m n))
  else
    let cost := zrepeat (zrepeat (nzero N) n) m in
    cost <- mset cost (m - 1) (n - 1) (ninf N) ;;
    a0 <- ts_at a 0 ;;
    b0 <- ts_at b 0 ;;
    cost <- mset cost 0 0 (sqd N a0 b0) ;;
    cost <- for_ 1 (Z.min (2 * r + 1) m) (dtw_col a b) cost ;;
    cost <- for_ 1 (Z.min (2 * r + 1) n) (dtw_row0 a b) cost ;;
    '(cost, dropped) <- forb 1 m (dtw_row a b r idropout) (cost, false) ;;
    result <- (if dropped : bool then Ok (ninf N) else mget cost (m - 1) (n - 1)) ;;
    Ok (euc_norm_dtw result (Z.max m n)).

(** Reading an envelope array. *)
Definition uget (u : uarray N) (i : Z) : outcome T :=
  x <- zget u i ;;
  match x with Some v => Ok v | None => UB Uninit end.

(** Distance.cpp:207-215, body of the loop; the loop condition [lb < idropout] is the break. *)
Definition keogh_step (lower upper : uarray N) (b : list T) (idropout : T) (i : Z) (lb : T)
  : outcome (ctl T) :=
  if negb (nltb N lb idropout) then Ok (Break lb)
  else
    bi <- ts_at b i ;;
    ui <- uget upper i ;;
    if nltb N ui bi then Ok (Next (nadd N lb (sqd N bi ui)))
    else
      li <- uget lower i ;;
      if nltb N bi li then Ok (Next (nadd N lb (sqd N bi li)))
      else Ok (Next lb).

(** Distance.cpp:203-216: the bound of [b] against an envelope of a series of length [la]. *)
Definition keogh_sum (lower upper : uarray N) (la : Z) (b : list T) (dropout : T) : outcome T :=
  let len := Z.min la (zlen b) in
  let maxlen := Z.max la (zlen b) in
  let x := nmul N (nmul N dropout (nofZ N 2)) (nofZ N maxlen) in
  let idropout := nmul N x x in
  lb <- forb 0 len (keogh_step lower upper b idropout) (nzero N) ;;
  Ok (euc_norm_dtw lb maxlen).

(** The envelope computed by TimeSeries::generateKeoghLU (src/TimeSeries.cpp:102-119):
    the band is clamped to length-1. *)
Definition generateKeoghLU (a : list T) (warpingBand : Z) : outcome (uarray N * uarray N) :=
  lower_upper_lemire N a (Z.min warpingBand (zlen a - 1)).

(** Distance.cpp:196-217 with freshly computed envelopes (the cached version is in
    TimeSeries.v). *)
Definition keoghLowerBound (ratio : T) (a b : list T) (dropout : T) : outcome T :=
  warpingBand <- calculateWarpingBandSize ratio (Z.max (zlen a) (zlen b)) ;;
  '(l, u) <- generateKeoghLU a warpingBand ;;
  keogh_sum l u (zlen a) b dropout.

(** Distance.cpp:219-228 *)
Definition crossKeoghLowerBound (ratio : T) (a b : list T) (dropout : T) : outcome T :=
  lb <- keoghLowerBound ratio a b dropout ;;
  if nltb N dropout lb then Ok (ninf N)
  else lb2 <- keoghLowerBound ratio b a dropout ;; Ok (smax N lb lb2).

(** Distance.cpp:230-243 *)
Definition cascadeDistance (ratio : T) (a b : list T) (dropout : T) : outcome T :=
  lb <- crossKeoghLowerBound ratio a b dropout ;;
  if nltb N dropout lb then Ok (ninf N)
  else warpedDistance ratio a b dropout.

(** Distance.cpp:257-265, body of the loop; the state is (total, dropped). *)
Definition pairwise_step (a b : list T) (idropout : T) (i : Z) (s : T * bool)
  : outcome (ctl (T * bool)) :=
  let '(total, dropped) := s in
  ai <- ts_at a i ;;
  bi <- ts_at b i ;;
  let total := nadd N total (sqd N ai bi) in
  if nltb N idropout total then Ok (Break (total, true)) else Ok (Next (total, dropped)).

(** Distance.cpp:245-268 *)
Definition pairwiseDistance (a b : list T) (dropout : T) : outcome T :=
  if negb (zlen a =? zlen b) then
    Throw (OnexExn "Two time series must have the same length for pairwise distance")
  else
    let maxlen := Z.max (zlen a) (zlen b) in
    let idropout := euc_inorm dropout maxlen in
    '(total, dropped) <- forb 0 (zlen a) (pairwise_step a b idropout) (nzero N, false) ;;
    Ok (if dropped : bool then ninf N else euc_norm total maxlen).

(** Distance.cpp:138-194 *)
Definition kimLowerBound (a b : list T) (dropout : T) : outcome T :=
  let al := zlen a in
  let bl := zlen b in
  let l := Z.min al bl in
  let e i j := ai <- ts_at a i ;; bj <- ts_at b j ;; Ok (sqd N ai bj) in
  if l =? 0 then Ok (nzero N)
  else if l =? 1 then e 0 0
  else
    x <- e 0 0 ;;
    let lb := nadd N (nzero N) x in
    x <- e (al - 1) (bl - 1) ;;
    let lb := nadd N lb x in
    if nltb N dropout lb then Ok (ninf N) else
    x1 <- e 0 1 ;; x2 <- e 1 1 ;; x3 <- e 1 0 ;;
    let lb := nadd N lb (smin N (smin N x1 x2) x3) in
    if nltb N dropout lb then Ok (ninf N) else
    x1 <- e (al - 1) (bl - 2) ;; x2 <- e (al - 2) (bl - 2) ;; x3 <- e (al - 2) (bl - 1) ;;
    let lb := nadd N lb (smin N (smin N x1 x2) x3) in
    if nleb N dropout lb then Ok (ninf N) else
    if l =? 4 then Ok lb else
    x1 <- e 0 2 ;; x2 <- e 1 2 ;; x3 <- e 2 2 ;; x4 <- e 2 1 ;; x5 <- e 2 0 ;;
    let lb := nadd N lb (smin N (smin N (smin N x1 x2) (smin N x3 x4)) x5) in
    if nltb N dropout lb then Ok (ninf N) else
    x1 <- e (al - 1) (bl - 3) ;; x2 <- e (al - 2) (bl - 3) ;; x3 <- e (al - 3) (bl - 3) ;;
    x4 <- e (al - 3) (bl - 2) ;; x5 <- e (al - 3) (bl - 1) ;;
    let lb := nadd N lb (smin N (smin N (smin N x1 x2) (smin N x3 x4)) x5) in
    Ok lb.

(** The distances selectable by name, Distance.cpp:20-29 [getDistance]. *)
Inductive dist_kind : Type := DPairwise | DWarped.
Definition getDistance (name : string) : outcome dist_kind :=
  if String.eqb name "euclidean" then Ok DPairwise
  else if String.eqb name "euclidean_dtw" then Ok DWarped
  else Throw (OnexExn ("Cannot find distance with name: " ++ name)%string).
Definition run_dist (k : dist_kind) (ratio : T) (a b : list T) (dropout : T) : outcome T :=
  match k with
  | DPairwise => pairwiseDistance a b dropout
  | DWarped => warpedDistance ratio a b dropout
  end.
End Distance.
