(** * Model of src/lib/trillionDTW.cpp:66-242: the lower bounds and the distance of the UCR suite.

    Arrays are lists; the model counts accesses outside of them as undefined behaviour.  malloc is assumed to succeed (for a negative
    size the arrays are empty here, so that every access is undefined behaviour).  lower_upper_lemire (19-64) is in Lemire.v. *)
From Coq Require Import ZArith Bool Lia List.
From Verif Require Import Outcome Num.
Import ListNotations.
Open Scope Z_scope.

Section Trillion.
Context (N : NumOps).
Local Notation T := (num N).

(** trillionDTW.h:14 [INF_TRILLION] = 1e20 *)
Definition big : T := nofZ N (10 ^ 20).
(** trillionDTW.cpp:10 [#define min(x,y) ((x)<(y)?(x):(y))]; [dist] (12) is [sqd]. *)
Definition tmin (x y : T) : T := if nltb N x y then x else y.

(** ** dtw (trillionDTW.cpp:176-242) *)

(** Body of the loop over j (199-223), where [cost] is the row being written and [k] the index of cell (i,j) in it. *)
Definition t_cell (A B prev : list T) (r i j : Z) (s : list T * Z * T) : outcome (list T * Z * T) :=
  let '(cost, k, min_cost) := s in
  if (i =? 0) && (j =? 0) then
    a <- zget A 0;;
    b <- zget B 0;;
    cost <- zset cost k (sqd N a b);;
    Ok (cost, k + 1, sqd N a b)
  else
    y <- (if (j - 1 <? 0) || (k - 1 <? 0) then Ok big else zget cost (k - 1));;
    x <- (if (i - 1 <? 0) || (2 * r <? k + 1) then Ok big else zget prev (k + 1));;
    z <- (if (i - 1 <? 0) || (j - 1 <? 0) then Ok big else zget prev k);;
    a <- zget A i;;
    b <- zget B j;;
    let v := nadd N (tmin (tmin x y) z) (sqd N a b) in
    cost <- zset cost k v;;
    Ok (cost, k + 1, if nltb N v min_cost then v else min_cost).

(** Body of the loop over i (194-236).  State: cost, cost_prev, k, and the result if the function has returned (225-229). *)
Definition t_row (A B cb : list T) (m r : Z) (bsf : T) (i : Z) (s : list T * list T * option Z * option T)
  : outcome (ctl (list T * list T * option Z * option T)) :=
  let '(cost, prev, _, _) := s in
  '(cost, k, min_cost) <- for_ (Z.max 0 (i - r)) (Z.min (m - 1) (i + r) + 1) (t_cell A B prev r i) (cost, Z.max 0 (r - i), big);;
  let next := Next (prev, cost, Some k, None) in
  if i + r <? m - 1 then
    c <- zget cb (i + r + 1);;
    if nleb N bsf (nadd N min_cost c) then Ok (Break (cost, prev, Some k, Some (nadd N min_cost c))) else Ok next
  else Ok next.

(** [k] is not initialised (183). *)
Definition t_dtw (A B cb : list T) (m r : Z) (bsf : T) : outcome T :=
  let row := zrepeat big (2 * r + 1) in
  '(_, prev, k, ret) <- forb 0 m (t_row A B cb m r bsf) (row, row, None, None);;
  match ret with
  | Some v => Ok v
  | None => match k with
            | Some k => zget prev (k - 1)
            | None => UB Uninit
            end
  end.

(** ** lb_kim_hierarchy (trillionDTW.cpp:71-112) *)
Definition znorm (mean std x : T) : T := ndiv N (nsub N x mean) std.
Definition t_kim (t q : list T) (j len : Z) (mean std bsf : T) : outcome T :=
  let at_t i := x <- zget t i;; Ok (znorm mean std x) in
  x0 <- at_t j;;
  y0 <- at_t (len - 1 + j);;
  q0 <- zget q 0;;
  ql1 <- zget q (len - 1);;
  let lb := nadd N (sqd N x0 q0) (sqd N y0 ql1) in
  if nleb N bsf lb then Ok lb else
  x1 <- at_t (j + 1);;
  q1 <- zget q 1;;
  let d := tmin (sqd N x1 q0) (sqd N x0 q1) in
  let d := tmin d (sqd N x1 q1) in
  let lb := nadd N lb d in
  if nleb N bsf lb then Ok lb else
  y1 <- at_t (len - 2 + j);;
  ql2 <- zget q (len - 2);;
  let d := tmin (sqd N y1 ql1) (sqd N y0 ql2) in
  let d := tmin d (sqd N y1 ql2) in
  let lb := nadd N lb d in
  if nleb N bsf lb then Ok lb else
  x2 <- at_t (j + 2);;
  q2 <- zget q 2;;
  let d := tmin (sqd N x0 q2) (sqd N x1 q2) in
  let d := tmin d (sqd N x2 q2) in
  let d := tmin d (sqd N x2 q1) in
  let d := tmin d (sqd N x2 q0) in
  let lb := nadd N lb d in
  if nleb N bsf lb then Ok lb else
  y2 <- at_t (len - 3 + j);;
  ql3 <- zget q (len - 3);;
  let d := tmin (sqd N y0 ql3) (sqd N y1 ql3) in
  let d := tmin d (sqd N y2 ql3) in
  let d := tmin d (sqd N y2 ql2) in
  let d := tmin d (sqd N y2 ql1) in
  Ok (nadd N lb d).

(** ** lb_keogh_cumulative (trillionDTW.cpp:123-140); the loop stops when lb < best_so_far is false. *)
Definition t_keogh_step (order : list Z) (t uo lo : list T) (j : Z) (mean std bsf : T) (i : Z) (s : T * list T) : outcome (ctl (T * list T)) :=
  let '(lb, cb) := s in
  if negb (nltb N lb bsf) then Ok (Break s) else
  o <- zget order i;;
  x <- zget t (o + j);;
  let x := znorm mean std x in
  u <- zget uo i;;
  d <- (if nltb N u x then Ok (sqd N x u)
        else l <- zget lo i;; Ok (if nltb N x l then sqd N x l else nzero N));;
  cb <- zset cb o d;;
  Ok (Next (nadd N lb d, cb)).
(** The bound and the array cb. *)
Definition t_keogh (order : list Z) (t uo lo cb : list T) (j len : Z) (mean std bsf : T) : outcome (T * list T) :=
  forb 0 len (t_keogh_step order t uo lo j mean std bsf) (nzero N, cb).

(** ** lb_keogh_data_cumulative (trillionDTW.cpp:150-170); the parameter tz is not used. *)
Definition t_keogh2_step (order : list Z) (qo l u : list T) (mean std bsf : T) (i : Z) (s : T * list T) : outcome (ctl (T * list T)) :=
  let '(lb, cb) := s in
  if negb (nltb N lb bsf) then Ok (Break s) else
  o <- zget order i;;
  uu <- zget u o;;
  let uu := znorm mean std uu in
  ll <- zget l o;;
  let ll := znorm mean std ll in
  x <- zget qo i;;
  let d := if nltb N uu x then sqd N x uu else if nltb N x ll then sqd N x ll else nzero N in
  cb <- zset cb o d;;
  Ok (Next (nadd N lb d, cb)).
Definition t_keogh2 (order : list Z) (qo cb l u : list T) (len : Z) (mean std bsf : T) : outcome (T * list T) :=
  forb 0 len (t_keogh2_step order qo l u mean std bsf) (nzero N, cb).

(** ** The cumulative bound (trillionDTW.cpp:493-505): [cb[m-1] = d[m-1]; for (k=m-2; k>=0; k--) cb[k] = cb[k+1] + d[k]]. *)
Definition t_suffix (d cb : list T) (m : Z) : outcome (list T) :=
  x <- zget d (m - 1);;
  cb <- zset cb (m - 1) x;;
  for_ 0 (m - 1) (fun t cb =>
    let k := m - 2 - t in
    c <- zget cb (k + 1);;
    x <- zget d k;;
    zset cb k (nadd N c x)) cb.

(** ** One window of the search (trillionDTW.cpp:469-527): the arrays cb, cb1, cb2, tz that it uses and, if the window is not
    pruned, its distance.  [l], [u]: l_buff+I and u_buff+I. *)
Record scratch : Type := mkScratch { w_cb : list T; w_cb1 : list T; w_cb2 : list T; w_tz : list T }.
Definition t_window (t q : list T) (order : list Z) (qo uo lo l u : list T) (j m r : Z) (mean std bsf : T) (w : scratch)
  : outcome (option T * scratch) :=
  lb_kim <- t_kim t q j m mean std bsf;;
  if nltb N lb_kim bsf then
    '(lb_k, cb1) <- t_keogh order t uo lo (w_cb1 w) j m mean std bsf;;
    let w := mkScratch (w_cb w) cb1 (w_cb2 w) (w_tz w) in
    if nltb N lb_k bsf then
      tz <- for_ 0 m (fun k tz => x <- zget t (k + j);; zset tz k (znorm mean std x)) (w_tz w);;
      '(lb_k2, cb2) <- t_keogh2 order qo (w_cb2 w) l u m mean std bsf;;
      let w := mkScratch (w_cb w) cb1 cb2 tz in
      if nltb N lb_k2 bsf then
        cb <- (if nltb N lb_k2 lb_k then t_suffix cb1 (w_cb w) m else t_suffix cb2 (w_cb w) m);;
        dist <- t_dtw tz q cb m r bsf;;
        Ok (Some dist, mkScratch cb cb1 cb2 tz)
      else Ok (None, w)
    else Ok (None, w)
  else Ok (None, w).
End Trillion.
