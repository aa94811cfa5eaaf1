(** * Specification of decimal numbers in text: what a string of digits denotes, integers and decimal
    fractions with an optional exponent.  Independent of the model of the C++ library (Text.v). *)
From Coq Require Import ZArith NArith Reals Ascii List.
From Flocq Require Import Core.
Import ListNotations.
Open Scope Z_scope.

(** The digits 0..9. *)
Definition digit (c : ascii) : Prop := (48 <= N_of_ascii c <= 57)%N.
Definition digits_only (t : list ascii) : Prop := Forall digit t.
(** The number that a list of digits denotes. *)
Fixpoint dec_value (t : list ascii) : Z :=
  match t with
  | [] => 0
  | c :: t' => (Z.of_N (N_of_ascii c) - 48) * 10 ^ Z.of_nat (length t') + dec_value t'
  end.
(** An optional sign; [neg] says whether it is a minus. *)
Definition sign_of (neg : bool) (t : list ascii) : Prop :=
  match neg with true => t = ["-"%char] | false => t = [] \/ t = ["+"%char] end.
Definition opp_if (neg : bool) (z : Z) : Z := if neg then - z else z.

(** [t] is the integer [z]: an optional sign and at least one digit. *)
Definition int_text (t : list ascii) (z : Z) : Prop :=
  exists neg s ds, t = s ++ ds /\ sign_of neg s /\ ds <> [] /\ digits_only ds /\ z = opp_if neg (dec_value ds).

(** [t] is the decimal number (-1)^neg * m * 10^e: an optional sign, digits with an optional point in front, between
    or behind (at least one digit), and optionally e or E and an integer. *)
Definition dec_text (t : list ascii) (neg : bool) (m e : Z) : Prop :=
  exists s ip fp point expo x, t = s ++ ip ++ point ++ expo /\ sign_of neg s /\ digits_only ip /\ digits_only fp /\ ip ++ fp <> [] /\
    (point = "."%char :: fp \/ (point = [] /\ fp = [])) /\
    ((expo = [] /\ x = 0) \/ exists c xt, (c = "e"%char \/ c = "E"%char) /\ expo = c :: xt /\ int_text xt x) /\
    m = dec_value (ip ++ fp) /\ e = x - Z.of_nat (length fp).
Definition radix10 : radix := Build_radix 10 eq_refl.
Definition dec_real (neg : bool) (m e : Z) : R := (IZR (opp_if neg m) * bpow radix10 e)%R.

(** Rounded to [P] significant decimal digits, ties to even. *)
Definition round10 (P : Z) (r : R) : R := round radix10 (FLX_exp P) ZnearestE r.
