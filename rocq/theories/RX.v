(** * [RX]: the exact-arithmetic instance: real numbers with +INF, -INF and NaN.

    Operations follow IEEE-754 on special values (there is a single zero, treated as +0), with no
    rounding and no overflow.  Used for properties that only hold without rounding. *)
From Coq Require Import ZArith Bool Reals Lra R_Ifp.
From Verif Require Import Outcome Num.
Open Scope R_scope.

Inductive rx : Type := Fin (r : R) | PInf | MInf | NaN.

Definition rx_neg (x : rx) : rx :=
  match x with Fin r => Fin (- r) | PInf => MInf | MInf => PInf | NaN => NaN end.

Definition rx_add (x y : rx) : rx :=
  match x, y with
  | NaN, _ | _, NaN => NaN
  | Fin a, Fin b => Fin (a + b)
  | PInf, MInf | MInf, PInf => NaN
  | PInf, _ | _, PInf => PInf
  | MInf, _ | _, MInf => MInf
  end.

Definition rx_sub (x y : rx) : rx := rx_add x (rx_neg y).

Definition Rltb (x y : R) : bool := if Rlt_dec x y then true else false.
Definition Rleb (x y : R) : bool := if Rle_dec x y then true else false.
Definition Reqb (x y : R) : bool := if Req_EM_T x y then true else false.

(** Infinity with the sign of [r]; 0 times infinity is NaN. *)
Definition rx_signed_inf (r : R) : rx :=
  if Rlt_dec 0 r then PInf else if Rlt_dec r 0 then MInf else NaN.

Definition rx_mul (x y : rx) : rx :=
  match x, y with
  | NaN, _ | _, NaN => NaN
  | Fin a, Fin b => Fin (a * b)
  | Fin a, PInf | PInf, Fin a => rx_signed_inf a
  | Fin a, MInf | MInf, Fin a => rx_signed_inf (- a)
  | PInf, PInf | MInf, MInf => PInf
  | PInf, MInf | MInf, PInf => MInf
  end.

Definition rx_div (x y : rx) : rx :=
  match x, y with
  | NaN, _ | _, NaN => NaN
  | Fin a, Fin b => if Req_EM_T b 0 then rx_signed_inf a else Fin (a / b)
  | Fin _, _ => Fin 0
  | PInf, Fin b => if Rlt_dec b 0 then MInf else PInf
  | MInf, Fin b => if Rlt_dec b 0 then PInf else MInf
  | _, _ => NaN
  end.

Definition rx_sqrt (x : rx) : rx :=
  match x with
  | Fin a => if Rlt_dec a 0 then NaN else Fin (sqrt a)
  | PInf => PInf
  | _ => NaN
  end.

Definition rx_abs (x : rx) : rx :=
  match x with Fin a => Fin (Rabs a) | PInf | MInf => PInf | NaN => NaN end.

Definition rx_ltb (x y : rx) : bool :=
  match x, y with
  | NaN, _ | _, NaN => false
  | Fin a, Fin b => Rltb a b
  | Fin _, PInf | MInf, Fin _ | MInf, PInf => true
  | _, _ => false
  end.

Definition rx_eqb (x y : rx) : bool :=
  match x, y with
  | Fin a, Fin b => Reqb a b
  | PInf, PInf | MInf, MInf => true
  | _, _ => false
  end.

Definition rx_leb (x y : rx) : bool := rx_ltb x y || rx_eqb x y.

Definition RX : NumOps := {|
  num := rx;
  nadd := rx_add;
  nsub := rx_sub;
  nmul := rx_mul;
  ndiv := rx_div;
  nsqrt := rx_sqrt;
  nabs := rx_abs;
  nltb := rx_ltb;
  nleb := rx_leb;
  neqb := rx_eqb;
  ninf := PInf;
  nninf := MInf;
  nofZ := fun z => Fin (IZR z);
  nfloor := fun x => match x with Fin r => Some (Int_part r) | _ => None end
|}.
