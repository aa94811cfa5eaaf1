(** * Numbers: the operations on [data_t] used by the code, as a record.

    src/TimeSeries.hpp:16-20 defines [data_t] = double (float with SINGLE_PRECISION: Single.v).  The
    code is transcribed once over [NumOps] and instantiated with
    - [F64] (this file): IEEE-754 binary64, round to nearest even, executable;
    - [RX] (file RX.v): real numbers plus the IEEE special values, i.e. "infinite precision". *)
From Coq Require Import ZArith Bool Lia SpecFloat List.
From Verif Require Import Outcome.
Import ListNotations.
Open Scope Z_scope.

Record NumOps : Type := mkNumOps {
  num : Type;
  nadd : num -> num -> num;
  nsub : num -> num -> num;
  nmul : num -> num -> num;
  ndiv : num -> num -> num;
  nsqrt : num -> num;
  nabs : num -> num;
  nltb : num -> num -> bool;     (* C++ < on doubles: false when an operand is NaN *)
  nleb : num -> num -> bool;     (* C++ <= *)
  neqb : num -> num -> bool;     (* C++ == *)
  ninf : num;                    (* std::numeric_limits<data_t>::infinity() *)
  nninf : num;                   (* -INF *)
  nofZ : Z -> num;               (* int -> double conversion, and integer literals *)
  nfloor : num -> option Z;      (* floor(x) for finite x, None for INF and NaN *)
}.

Section Derived.
Context (N : NumOps).
Local Notation T := (num N).

Definition nzero : T := nofZ N 0.

(** std::min(a,b): [(b < a) ? b : a]; std::max(a,b): [(a < b) ? b : a]. *)
Definition smin (a b : T) : T := if nltb N b a then b else a.
Definition smax (a b : T) : T := if nltb N a b then b else a.

(** src/distance/Distance.cpp:31-34 [_euc].  pow(d,2) is taken to be the correctly rounded d*d. *)
Definition sqd (x y : T) : T := let d := nsub N x y in nmul N d d.

(** Conversion of a floored double to a 32-bit int; out of range is undefined behaviour. *)
Definition int_min : Z := -2147483648.
Definition int_max : Z := 2147483647.
Definition floor_int (x : T) : outcome Z :=
  match nfloor N x with
  | Some z => if (int_min <=? z) && (z <=? int_max) then Ok z else UB BadConv
  | None => UB BadConv
  end.
End Derived.

(** ** binary64 *)
Definition prec64 : Z := 53.
Definition emax64 : Z := 1024.

(** A [spec_float] denoting a binary64 datum (the type also contains out-of-format triples). *)
Definition is_f64 (x : spec_float) : bool := valid_binary prec64 emax64 x.

Definition f64_ofZ (z : Z) : spec_float := binary_normalize prec64 emax64 z 0 false.

Definition f64_floor (x : spec_float) : option Z :=
  match x with
  | S754_zero _ => Some 0
  | S754_finite s m e =>
      let z := cond_Zopp s (Zpos m) in
      Some (if 0 <=? e then z * 2 ^ e else z / 2 ^ (- e))
  | _ => None
  end.

Definition F64 : NumOps := {|
  num := spec_float;
  nadd := SFadd prec64 emax64;
  nsub := SFsub prec64 emax64;
  nmul := SFmul prec64 emax64;
  ndiv := SFdiv prec64 emax64;
  nsqrt := SFsqrt prec64 emax64;
  nabs := SFabs;
  nltb := SFltb;
  nleb := SFleb;
  neqb := SFeqb;
  ninf := S754_infinity false;
  nninf := S754_infinity true;
  nofZ := f64_ofZ;
  nfloor := f64_floor
|}.

(** The binary64 nearest to m * 10^e (for literals such as 0.1 in the source and for parsing). *)
Definition f64_of_dec (neg : bool) (m : N) (e : Z) : spec_float :=
  match m with
  | N0 => S754_zero neg
  | Npos p =>
      if 0 <=? e then binary_round prec64 emax64 neg (p * Z.to_pos (10 ^ e)) 0
      else
        let '(q, e', l) := SFdiv_core_binary prec64 emax64 (Zpos p) 0 (10 ^ (- e)) 0 in
        binary_round_aux prec64 emax64 neg q e' l
  end.
