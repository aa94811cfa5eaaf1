(** * The single-precision build: the operations on [data_t] = float.

    src/TimeSeries.hpp:16-20 with SINGLE_PRECISION (CMakeLists.txt:13, config.hpp.in:1).  The code
    is the same, so the model is the one of the other files over another [NumOps].  An expression
    can mix floats, ints and the double [warpingBandRatio] (src/distance/Distance.cpp:126): a value
    is a float, a double or an int (0 is a float: it only initialises floats), and an operation
    converts its operands as the usual arithmetic conversions of C++ do: to double when one of them is a double,
    to float otherwise.

    Simplifications: [pow(d, 2)] is the correctly rounded product (the double product of two floats
    is exact, so this is what the conversion of the double result gives), and [sqrt] of a float is
    the float overload (so it is where <cmath> declares the overloads in the global namespace;
    elsewhere Distance.cpp:48 divides in double before it rounds to float). *)
From Coq Require Import ZArith Bool SpecFloat.
From Verif Require Import Outcome Num.
Open Scope Z_scope.

Definition prec32 : Z := 24.
Definition emax32 : Z := 128.

(** A [spec_float] denoting a binary32 datum. *)
Definition is_f32 (x : spec_float) : bool := valid_binary prec32 emax32 x.
Definition f32_ofZ (z : Z) : spec_float := binary_normalize prec32 emax32 z 0 false.

(** float -> double and double -> float. *)
Definition f32_to64 (x : spec_float) : spec_float :=
  match x with S754_finite s m e => binary_round prec64 emax64 s m e | _ => x end.
Definition f64_to32 (x : spec_float) : spec_float :=
  match x with S754_finite s m e => binary_round prec32 emax32 s m e | _ => x end.

(** binary32 operations alone. *)
Definition B32 : NumOps := {|
  num := spec_float;
  nadd := SFadd prec32 emax32;
  nsub := SFsub prec32 emax32;
  nmul := SFmul prec32 emax32;
  ndiv := SFdiv prec32 emax32;
  nsqrt := SFsqrt prec32 emax32;
  nabs := SFabs;
  nltb := SFltb;
  nleb := SFleb;
  neqb := SFeqb;
  ninf := S754_infinity false;
  nninf := S754_infinity true;
  nofZ := f32_ofZ;
  nfloor := f64_floor
|}.

Inductive mixed : Type :=
| Sg (x : spec_float)      (* float *)
| Db (x : spec_float)      (* double *)
| In (z : Z).              (* int *)

Definition to32 (v : mixed) : spec_float :=
  match v with Sg x => x | Db x => f64_to32 x | In z => f32_ofZ z end.
Definition to64 (v : mixed) : spec_float :=
  match v with Sg x => f32_to64 x | Db x => x | In z => f64_ofZ z end.

(** The usual arithmetic conversions. *)
Definition wide (v w : mixed) : bool :=
  match v, w with Db _, _ | _, Db _ => true | _, _ => false end.
Definition arith (f32 f64 : spec_float -> spec_float -> spec_float) (v w : mixed) : mixed :=
  if wide v w then Db (f64 (to64 v) (to64 w)) else Sg (f32 (to32 v) (to32 w)).
Definition test (f : spec_float -> spec_float -> bool) (v w : mixed) : bool :=
  if wide v w then f (to64 v) (to64 w) else f (to32 v) (to32 w).

Definition F32 : NumOps := {|
  num := mixed;
  nadd := arith (nadd B32) (nadd F64);
  nsub := arith (nsub B32) (nsub F64);
  nmul := arith (nmul B32) (nmul F64);
  ndiv := arith (ndiv B32) (ndiv F64);
  nsqrt := fun v => match v with Db x => Db (nsqrt F64 x) | _ => Sg (nsqrt B32 (to32 v)) end;
  nabs := fun v => match v with Db x => Db (SFabs x) | _ => Sg (SFabs (to32 v)) end;
  nltb := test SFltb;
  nleb := test SFleb;
  neqb := test SFeqb;
  ninf := Sg (S754_infinity false);
  nninf := Sg (S754_infinity true);
  nofZ := fun z => if z =? 0 then Sg (S754_zero false) else In z;
  nfloor := fun v => match v with In z => Some z | Sg x | Db x => f64_floor x end
|}.
