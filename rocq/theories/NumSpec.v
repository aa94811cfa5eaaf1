(** * Specification of reading and printing doubles: which double a real number becomes, words of a text.

    [val] is the real number that a finite double denotes and [rnd r] is [r] rounded to a double (to nearest, ties to
    even), both from F64Base.v. *)
From Coq Require Import ZArith Reals SpecFloat Ascii List.
From Flocq Require Import Core BinarySingleNaN.
From Verif Require Import F64Base DecSpec.
Import ListNotations.
Open Scope Z_scope.

(** The finite double [y] is [r] rounded, with sign [neg] (which matters for zero). *)
Definition double_of (y : spec_float) (neg : bool) (r : R) : Prop := fin64 y /\ val y = rnd r /\ sign_SF y = neg.
(** Zero, or a number of the size of a normal double that does not round to an infinity. *)
Definition representable (r : R) : Prop := r = 0%R \/ ((bpow radix2 (-1022) <= Rabs r)%R /\ (Rabs (rnd r) < bpow radix2 1024)%R).
(** Characters of decimal numerals. *)
Definition number_char (c : ascii) : Prop := digit c \/ In c ["-"; "+"; "."; "e"; "E"]%char.
(** The character after a numeral does not belong to it. *)
Definition not_numeral (r : list ascii) : Prop :=
  match r with c :: _ => ~ digit c /\ ~ In c ["."; "e"; "E"; "x"; "X"]%char | [] => True end.

(** White space: tab, newline, vertical tab, form feed, carriage return, space. *)
Definition white (c : ascii) : Prop := (9 <= N_of_ascii c <= 13)%N \/ N_of_ascii c = 32%N.
(** The first word of the text [t] is [w]; [r] is what follows it. *)
Definition first_word (t w r : list ascii) : Prop :=
  exists s, t = s ++ w ++ r /\ Forall white s /\ w <> [] /\ Forall (fun c => ~ white c) w /\
    (r = [] \/ exists c r', r = c :: r' /\ white c).
(** A word that is a number in the range of int, and one that is a number in the range of double. *)
Definition first_int (t : list ascii) (z : Z) (r : list ascii) : Prop :=
  exists w, first_word t w r /\ int_text w z /\ - 2 ^ 31 <= z < 2 ^ 31.
Definition first_double (t : list ascii) (y : spec_float) (r : list ascii) : Prop :=
  exists w neg m e, first_word t w r /\ dec_text w neg m e /\ double_of y neg (dec_real neg m e).
