(** * The search of the UCR suite with its 32-bit [int] arithmetic (src/lib/trillionDTW.cpp:245-572).

    As Search.v, with the counters of pruned windows (261, 516-521) and the number of chunks [it] as ints and every
    product and sum of ints that grows with the file checked (514, 533, 537).  A result that does not fit an int is
    [UB IntOverflow].  The long long variables i, j, I and loc stay unbounded: they hold positions in the file.
    Inside one window the ints are at most 2*m and 2*r+2, which the envelope checks first. *)
From Coq Require Import ZArith Bool Lia List.
From Verif Require Import Outcome Num Lemire Trillion Search Ints.
Import ListNotations.
Open Scope Z_scope.

(** trillionDTW.cpp:261: the ints kim, keogh, keogh2.  [c_dtw] is not in the program: it counts the calls of dtw (line 508), to say
    what the last line of the report means. *)
Record counts : Type := mkCounts { c_kim : Z; c_keogh : Z; c_keogh2 : Z; c_dtw : Z }.

Section Search32.
Context (N : NumOps).
Local Notation T := (num N).

(** trillionDTW.cpp:469-521, as [t_window]: kim++, keogh++, keogh2++. *)
Definition t_window32 (t q : list T) (order : list Z) (qo uo lo l u : list T) (j m r : Z) (mean std bsf : T) (w : scratch N) (c : counts)
  : outcome (option T * scratch N * counts) :=
  lb_kim <- t_kim N t q j m mean std bsf;;
  if nltb N lb_kim bsf then
    '(lb_k, cb1) <- t_keogh N order t uo lo (w_cb1 N w) j m mean std bsf;;
    let w := mkScratch N (w_cb N w) cb1 (w_cb2 N w) (w_tz N w) in
    if nltb N lb_k bsf then
      tz <- for_ 0 m (fun k tz => x <- zget t (k + j);; zset tz k (znorm N mean std x)) (w_tz N w);;
      '(lb_k2, cb2) <- t_keogh2 N order qo (w_cb2 N w) l u m mean std bsf;;
      let w := mkScratch N (w_cb N w) cb1 cb2 tz in
      if nltb N lb_k2 bsf then
        cb <- (if nltb N lb_k2 lb_k then t_suffix N cb1 (w_cb N w) m else t_suffix N cb2 (w_cb N w) m);;
        dist <- t_dtw N tz q cb m r bsf;;
        Ok (Some dist, mkScratch N cb cb1 cb2 tz, mkCounts (c_kim c) (c_keogh c) (c_keogh2 c) (c_dtw c + 1))
      else n <- chk (c_keogh2 c + 1);; Ok (None, w, mkCounts (c_kim c) (c_keogh c) n (c_dtw c))
    else n <- chk (c_keogh c + 1);; Ok (None, w, mkCounts (c_kim c) n (c_keogh2 c) (c_dtw c))
  else n <- chk (c_kim c + 1);; Ok (None, w, mkCounts n (c_keogh c) (c_keogh2 c) (c_dtw c)).

(** [(it)*(EPOCH-m+1)], a product of ints (514, 537). *)
Definition base32 (epoch m it : Z) : outcome Z :=
  e <- chk (epoch - m);;
  e <- chk (e + 1);;
  chk (it * e).

(** trillionDTW.cpp:442-527, as [p_step]; the location (514) is computed when a better window is found. *)
Definition p_step32 (qy : query N) (epoch m r it : Z) (buffer l u : list T) (i : Z) (s : pstate N * counts) : outcome (pstate N * counts) :=
  let '((ex, ex2, t, w, b), c) := s in
  d <- zget buffer i;;
  let ex := nadd N ex d in
  let ex2 := nadd N ex2 (nmul N d d) in
  t <- zset t (i mod m) d;;
  t <- zset t (i mod m + m) d;;
  if m - 1 <=? i then
    let mean := mean_of N ex m in
    let std := std_of N ex ex2 m in
    let j := (i + 1) mod m in
    let I := i - (m - 1) in
    '(res, w, c) <- t_window32 t (qu_q N qy) (qu_order N qy) (qu_qo N qy) (qu_uo N qy) (qu_lo N qy) (skipn (Z.to_nat I) l) (skipn (Z.to_nat I) u)
                   j m r mean std (b_bsf N b) w c;;
    b <- match res with
         | Some dist => if nltb N dist (b_bsf N b) then p <- base32 epoch m it;; Ok (mkBest N dist (p + i - m + 1)) else Ok b
         | None => Ok b
         end;;
    x <- zget t j;;
    Ok ((nsub N ex x, nsub N ex2 (nmul N x x), t, w, b), c)
  else Ok ((ex, ex2, t, w, b), c).

(** trillionDTW.cpp:434-527, as [chunk].  Lines 437-438 print a dot if [it%(1000000/(EPOCH-m+1))==0]. *)
Definition chunk32 (qy : query N) (epoch m r it : Z) (buffer : list T) (t : list T) (w : scratch N) (b : best N) (c : counts)
  : outcome (list T * scratch N * best N * counts) :=
  '(l, u) <- lower_upper_lemire32 N buffer r;;
  e <- chk (epoch - m);;
  e <- chk (e + 1);;
  if Z.quot 1000000 e =? 0 then UB DivZero else
  l <- read_all N l;;
  u <- read_all N u;;
  '((_, _, t, w, b), c) <- for_ 0 (zlen buffer) (p_step32 qy epoch m r it buffer l u) ((nzero N, nzero N, t, w, b), c);;
  Ok (t, w, b, c).

(** trillionDTW.cpp:537: [i = (it)*(EPOCH-m+1) + ep]. *)
Definition scanned32 (epoch m it ep : Z) (b : best N) (c : counts) : outcome (found N * counts) :=
  p <- base32 epoch m it;;
  s <- chk (p + ep);;
  Ok (mkFound N (b_loc N b) (b_bsf N b) s, c).

(** trillionDTW.cpp:406-537, as [chunks]. *)
Fixpoint chunks32 (fuel : nat) (epoch : Z) (qy : query N) (m r it : Z) (f : nfile N) (d : option T) (buffer t : list T) (w : scratch N) (b : best N) (c : counts)
  : outcome (found N * counts) :=
  match fuel with
  | O => NoFuel
  | S fuel =>
    '(head, f, d) <- (if it =? 0 then read_n N (Z.to_nat (m - 1)) f d else Ok (zslice buffer (epoch - m + 1) (m - 1), f, d));;
    if epoch <? zlen head then UB OutOfBounds else
    '(tail, f, d) <- read_n N (Z.to_nat (epoch - (m - 1))) f d;;
    let ep := m - 1 + zlen tail in
    if zlen tail =? 0 then scanned32 epoch m it ep b c else
    let buffer := head ++ tail in
    '(t, w, b, c) <- chunk32 qy epoch m r it buffer t w b c;;
    if ep <? epoch then scanned32 epoch m it ep b c
    else it <- chk (it + 1);; chunks32 fuel epoch qy m r it f d buffer t w b c
  end.

(** trillionDTW.cpp:350-389, as [prepare]. *)
Definition prepare32 (sort : list T -> list Z) (f : nfile N) (m r : Z) : outcome (query N * option T) :=
  '(q, ex, ex2, d) <- read_query N (Z.to_nat m) f None [] (nzero N) (nzero N);;
  if zlen q <? m then UB Uninit else
  let q := map (znorm N (mean_of N ex m) (std_of N ex ex2 m)) q in
  '(l, u) <- lower_upper_lemire32 N q r;;
  l <- read_all N l;;
  u <- read_all N u;;
  let order := sort q in
  qo <- gather N q order;;
  uo <- gather N u order;;
  lo <- gather N l order;;
  Ok (mkQuery N q order qo lo uo, d).

(** calculate (245-572): what was found and the counters. *)
Definition search32 (fuel : nat) (epoch : Z) (sort : list T -> list Z) (data query : nfile N) (m r : Z) : outcome (found N * counts) :=
  '(qy, d) <- prepare32 sort query m r;;
  let z := zrepeat (nzero N) m in
  chunks32 fuel epoch qy m r 0 data d [] (zrepeat (nzero N) (2 * m)) (mkScratch N z z z z) (mkBest N (big N) 0) (mkCounts 0 0 0 0).
Definition calculate32 (fuel : nat) (epoch : Z) (sort : list T -> list Z) (data query : nfile N) (m r : Z) : outcome (found N) :=
  '(fo, _) <- search32 fuel epoch sort data query m r;; Ok fo.

(** trillionDTW.cpp:559-570: the numbers of the report; not the elapsed time and not their text. *)
Record report : Type := mkReport { rp_location : Z; rp_distance : T; rp_scanned : Z; rp_kim : T; rp_keogh : T; rp_keogh2 : T; rp_dtw : T }.
(** [((data_t) n / i)*100] *)
Definition percent (n i : Z) : T := nmul N (ndiv N (nofZ N n) (nofZ N i)) (nofZ N 100).
Definition report_of (fo : found N) (c : counts) : report :=
  let i := fo_scanned N fo in
  mkReport (fo_loc N fo) (nsqrt N (fo_bsf N fo)) i (percent (c_kim c) i) (percent (c_keogh c) i) (percent (c_keogh2 c) i)
    (nsub N (nofZ N 100) (nmul N (ndiv N (nadd N (nadd N (nofZ N (c_kim c)) (nofZ N (c_keogh c))) (nofZ N (c_keogh2 c))) (nofZ N i)) (nofZ N 100))).
End Search32.
