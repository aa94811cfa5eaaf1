(** * Text: lines, tokens, and conversion between numbers and text as done by the C++ standard
    library (iostream, std::stod, std::stoi) and boost::tokenizer on behalf of the modelled code.

    These are models of library functions, not of files in /repo; the call sites are cited. *)
From Coq Require Import ZArith Bool Lia SpecFloat Ascii String List.
From Verif Require Import Outcome Num.
Import ListNotations.
Open Scope Z_scope.

Definition text : Type := list ascii.
Definition T_ (s : string) : text := list_ascii_of_string s.

Definition nl : ascii := "010"%char.
Definition sp : ascii := " "%char.

(** isspace in the C locale. *)
Definition is_space (c : ascii) : bool :=
  let n := N_of_ascii c in ((9 <=? n) && (n <=? 13) || (n =? 32))%N.

Definition digit_val (c : ascii) : option N :=
  let n := N_of_ascii c in
  if ((48 <=? n) && (n <=? 57))%N then Some (n - 48)%N else None.

Definition hex_val (c : ascii) : option N :=
  let n := N_of_ascii c in
  if ((48 <=? n) && (n <=? 57))%N then Some (n - 48)%N
  else if ((97 <=? n) && (n <=? 102))%N then Some (n - 87)%N
  else if ((65 <=? n) && (n <=? 70))%N then Some (n - 55)%N
  else None.

Definition digit_char (d : Z) : ascii := ascii_of_N (48 + Z.to_N d).

Definition lower_char (c : ascii) : ascii :=
  let n := N_of_ascii c in
  if ((65 <=? n) && (n <=? 90))%N then ascii_of_N (n + 32) else c.

(** ** Lines: repeated std::getline until it fails. *)
Fixpoint lines_aux (cur : text) (t : text) : list text :=
  match t with
  | [] => match cur with [] => [] | _ => [rev cur] end
  | c :: t' => if Ascii.eqb c nl then rev cur :: lines_aux [] t' else lines_aux (c :: cur) t'
  end.
Definition lines (t : text) : list text := lines_aux [] t.

(** ** Tokens: boost::char_separator with dropped delimiters [seps], no kept delimiters, empty
    tokens dropped. *)
Definition mem_ascii (c : ascii) (l : text) : bool := existsb (Ascii.eqb c) l.

Fixpoint tokens_aux (seps : text) (cur : text) (t : text) : list text :=
  match t with
  | [] => match cur with [] => [] | _ => [rev cur] end
  | c :: t' =>
      if mem_ascii c seps then
        match cur with [] => tokens_aux seps [] t' | _ => rev cur :: tokens_aux seps [] t' end
      else tokens_aux seps (c :: cur) t'
  end.
Definition tokens (seps : text) (line : text) : list text := tokens_aux seps [] line.

(** ** Printing integers: [out << int]. *)
Fixpoint dec_digits (fuel : nat) (n : Z) (acc : list Z) : list Z :=
  match fuel with
  | O => acc
  | S f => if n <? 10 then n :: acc else dec_digits f (n / 10) (n mod 10 :: acc)
  end.
(** Decimal digits of n >= 0, most significant first ([0] for 0). *)
Definition digits (n : Z) : list Z := dec_digits (S (Z.to_nat (Z.log2 n))) n [].
Definition print_Z (z : Z) : text :=
  if z <? 0 then "-"%char :: map digit_char (digits (- z)) else map digit_char (digits z).

(** ** Printing doubles: [out << double] in the default floating-point format with precision P,
    i.e. printf("%.*g").  Exact decimal expansion, rounded half to even, as in glibc.  The sign of
    a NaN is not modelled ("nan"). *)

(** n / d rounded to an integer, ties to even (d > 0). *)
Definition div_rne (n d : Z) : Z :=
  let q := n / d in
  let r2 := 2 * (n mod d) in
  if r2 <? d then q
  else if d <? r2 then q + 1
  else if Z.even q then q else q + 1.

(** floor(log10 (n/d)) for n,d > 0. *)
Definition ndigits (n : Z) : Z := zlen (digits n).
Definition dec_exponent (n d : Z) : Z :=
  if d <=? n then ndigits (n / d) - 1
  else - ndigits ((d - 1) / n).

(** n/d = q * 10^(X - (P-1)) rounded to P significant digits: returns (q, X), 10^(P-1) <= q < 10^P. *)
Definition round_dec (P : Z) (n d : Z) : Z * Z :=
  let X := dec_exponent n d in
  let k := P - 1 - X in
  let q := if 0 <=? k then div_rne (n * 10 ^ k) d else div_rne n (d * 10 ^ (- k)) in
  if q =? 10 ^ P then (10 ^ (P - 1), X + 1) else (q, X).

Fixpoint strip_zeros (l : list Z) : list Z :=
  match l with
  | [] => []
  | d :: l' => match strip_zeros l' with
               | [] => if d =? 0 then [] else [d]
               | l'' => d :: l''
               end
  end.

Definition dchars (l : list Z) : text := map digit_char l.
Definition with_frac (ip : list Z) (fp : list Z) : text :=
  match strip_zeros fp with
  | [] => dchars ip
  | fp' => dchars ip ++ "."%char :: dchars fp'
  end.

Definition print_exp (X : Z) : text :=
  "e"%char :: (if X <? 0 then "-"%char else "+"%char) ::
  (if Z.abs X <? 10 then digit_char 0 :: dchars (digits (Z.abs X)) else dchars (digits (Z.abs X))).

Definition print_dec (P q X : Z) : text :=
  let ds := digits q in
  if (-4 <=? X) && (X <? P) then
    if 0 <=? X then with_frac (firstn (Z.to_nat (X + 1)) ds) (skipn (Z.to_nat (X + 1)) ds)
    else with_frac [0] (repeat 0 (Z.to_nat (- X - 1)) ++ ds)
  else with_frac (firstn 1 ds) (skipn 1 ds) ++ print_exp X.

Definition sign_text (neg : bool) : text := if neg then ["-"%char] else [].

(** |x| as a fraction. *)
Definition fin_frac (m : positive) (e : Z) : Z * Z :=
  if 0 <=? e then (Zpos m * 2 ^ e, 1) else (Zpos m, 2 ^ (- e)).

Definition print_g (P : Z) (x : spec_float) : text :=
  match x with
  | S754_zero s => sign_text s ++ T_ "0"
  | S754_infinity s => sign_text s ++ T_ "inf"
  | S754_nan => T_ "nan"
  | S754_finite s m e =>
      let '(n, d) := fin_frac m e in
      let '(q, X) := round_dec P n d in
      sign_text s ++ print_dec P q X
  end.

(** ** Reading numbers. *)
Fixpoint skip_space (t : text) : text :=
  match t with
  | c :: t' => if is_space c then skip_space t' else t
  | [] => []
  end.

(** Longest prefix of digits in a base: (value accumulated onto [acc], number of digits, rest). *)
Fixpoint take_digits (val : ascii -> option N) (base : N) (acc : N) (cnt : Z) (t : text)
  : N * Z * text :=
  match t with
  | c :: t' => match val c with
               | Some d => take_digits val base (acc * base + d) (cnt + 1) t'
               | None => (acc, cnt, t)
               end
  | [] => (acc, cnt, [])
  end.

Definition take_sign (t : text) : bool * text :=
  match t with
  | c :: t' => if Ascii.eqb c "-" then (true, t')
               else if Ascii.eqb c "+" then (false, t') else (false, t)
  | [] => (false, [])
  end.

(** Mantissa digits[.digits]: (mantissa, number of fraction digits, number of digits, rest). *)
Definition take_mant (val : ascii -> option N) (base : N) (t : text) : N * Z * Z * text :=
  let '(m, c, r) := take_digits val base 0%N 0 t in
  match r with
  | dot :: r' =>
      if Ascii.eqb dot "." then
        let '(m2, c2, r2) := take_digits val base m 0 r' in
        if (c + c2 =? 0) then (m, 0, 0, r) else (m2, c2, c + c2, r2)
      else (m, 0, c, r)
  | [] => (m, 0, c, r)
  end.

(** Optional exponent introduced by [e] (lower case): (exponent, rest). *)
Definition take_exp (e : ascii) (t : text) : Z * text :=
  match t with
  | c :: t' =>
      if Ascii.eqb (lower_char c) e then
        let '(neg, t2) := take_sign t' in
        let '(v, n, t3) := take_digits digit_val 10 0%N 0 t2 in
        if n =? 0 then (0, t) else ((if neg then - Z.of_N v else Z.of_N v), t3)
      else (0, t)
  | [] => (0, [])
  end.

Inductive numlit : Type :=
| LDec (m : N) (e : Z)   (* m * 10^e *)
| LHex (m : N) (e : Z)   (* m * 2^e *)
| LInf
| LNan.

Fixpoint prefix_ci (p t : text) : bool :=
  match p, t with
  | [], _ => true
  | a :: p', b :: t' => Ascii.eqb a (lower_char b) && prefix_ci p' t'
  | _, [] => false
  end.

(** strtod: sign, literal, rest; None if no conversion can be performed.  For inf/nan the rest is not
    computed precisely (no caller looks at it). *)
Definition strtod (t : text) : option (bool * numlit * text) :=
  let t := skip_space t in
  let '(neg, t) := take_sign t in
  if prefix_ci (T_ "inf") t then Some (neg, LInf, skipn 3 t)
  else if prefix_ci (T_ "nan") t then Some (neg, LNan, skipn 3 t)
  else
    let dec :=
      let '(m, fr, n, r) := take_mant digit_val 10 t in
      if n =? 0 then None
      else let '(e, r) := take_exp "e" r in Some (neg, LDec m (e - fr), r) in
    if prefix_ci (T_ "0x") t then
      let '(m, fr, n, r) := take_mant hex_val 16 (skipn 2 t) in
      if n =? 0 then dec
      else let '(e, r) := take_exp "p" r in Some (neg, LHex m (e - 4 * fr), r)
    else dec.

(** m * 10^e (or m * 2^e) rounded to nearest even in precision 53 and exponent range emax. *)
Definition round_lit (emax : Z) (neg : bool) (l : numlit) : spec_float :=
  match l with
  | LDec m e =>
      match m with
      | N0 => S754_zero neg
      | Npos p =>
          if 0 <=? e then binary_round prec64 emax neg (p * Z.to_pos (10 ^ e)) 0
          else
            let '(q, e', lo) := SFdiv_core_binary prec64 emax (Zpos p) 0 (10 ^ (- e)) 0 in
            binary_round_aux prec64 emax neg q e' lo
      end
  | LHex m e =>
      match m with
      | N0 => S754_zero neg
      | Npos p => binary_round prec64 emax neg p e
      end
  | LInf => S754_infinity neg
  | LNan => S754_nan
  end.
Definition lit_value : bool -> numlit -> spec_float := round_lit emax64.

(** Is the finite x = m*2^e exactly the literal? *)
Definition lit_exact (l : numlit) (x : spec_float) : bool :=
  match x with
  | S754_finite _ p e =>
      let '(n, d) := fin_frac p e in
      match l with
      | LDec m k => if 0 <=? k then n =? Z.of_N m * 10 ^ k * d else n * 10 ^ (- k) =? Z.of_N m * d
      | LHex m k => if 0 <=? k then n =? Z.of_N m * 2 ^ k * d else n * 2 ^ (- k) =? Z.of_N m * d
      | _ => true
      end
  | S754_zero _ => match l with LDec m _ | LHex m _ => (m =? 0)%N | _ => true end
  | _ => true
  end.

(** |x| < 2^-1022 *)
Definition is_tiny (x : spec_float) : bool :=
  match x with
  | S754_zero _ => true
  | S754_finite _ p e => Zpos (digits2_pos p) + e <=? -1022
  | _ => false
  end.

(** errno = ERANGE after strtod (glibc): overflow, or an inexact result that is tiny. *)
Definition lit_erange (neg : bool) (l : numlit) : bool :=
  match l with
  | LInf | LNan => false
  | _ =>
      match lit_value neg l with
      | S754_infinity _ => true
      | x => negb (lit_exact l x) && is_tiny (round_lit 65536 neg l)
      end
  end.

(** std::stod: trailing characters are ignored. *)
Definition stod (t : text) : outcome spec_float :=
  match strtod t with
  | None => Throw (LogicExn "std::invalid_argument")
  | Some (neg, l, _) =>
      if lit_erange neg l then Throw (LogicExn "std::out_of_range") else Ok (lit_value neg l)
  end.

(** std::stoi (base 10): leading space, sign, digits; trailing characters are ignored. *)
Definition stoi (t : text) : outcome Z :=
  let '(neg, t) := take_sign (skip_space t) in
  let '(v, n, _) := take_digits digit_val 10 0%N 0 t in
  if n =? 0 then Throw (LogicExn "std::invalid_argument")
  else
    let z := if neg then - Z.of_N v else Z.of_N v in
    if (int_min <=? z) && (z <=? int_max) then Ok z else Throw (LogicExn "std::out_of_range").

(** ** Input streams: the unread characters and the fail flag. *)
Record istream : Type := mkIS { is_rest : text; is_fail : bool }.

(** [fin >> x] starts with a sentry: nothing happens if the stream has failed; leading white space
    is skipped; at the end of the file the stream fails and x is left unchanged ([None]).
    Otherwise [conv] yields (value stored, success, rest). *)
Definition extract {A} (conv : text -> A * bool * text) (s : istream) : istream * option A :=
  if is_fail s then (s, None)
  else match skip_space (is_rest s) with
       | [] => (mkIS [] true, None)
       | t => let '(v, ok, r) := conv t in (mkIS r (negb ok), Some v)
       end.

(** operator>>(int&): on failure to find digits 0 is stored, on overflow the nearest limit. *)
Definition conv_int (t : text) : Z * bool * text :=
  let '(neg, t) := take_sign t in
  let '(v, n, r) := take_digits digit_val 10 0%N 0 t in
  if n =? 0 then (0, false, r)
  else
    let z := if neg then - Z.of_N v else Z.of_N v in
    if z <? int_min then (int_min, false, r)
    else if int_max <? z then (int_max, false, r)
    else (z, true, r).

(** operator>>(std::string&) *)
Fixpoint take_word (t : text) : text * text :=
  match t with
  | c :: t' => if is_space c then ([], t) else let '(w, r) := take_word t' in (c :: w, r)
  | [] => ([], [])
  end.
Definition conv_word (t : text) : text * bool * text :=
  let '(w, r) := take_word t in (w, true, r).

(** operator>>(double&), libstdc++: characters are accumulated by the grammar
    optional sign, digits, optional dot and digits, optional e/E (only after a digit) with
    optional sign and digits, and the
    accumulated characters must be completely convertible by strtod. *)
Fixpoint accum_float (seen_digit seen_dot seen_exp : bool) (prev_exp : bool) (t : text)
  : text * text :=
  match t with
  | [] => ([], [])
  | c :: t' =>
      let go d p x pe := let '(w, r) := accum_float d p x pe t' in (c :: w, r) in
      match digit_val c with
      | Some _ => go true seen_dot seen_exp false
      | None =>
          if Ascii.eqb c "." && negb seen_dot && negb seen_exp then go seen_digit true seen_exp false
          else if Ascii.eqb (lower_char c) "e" && seen_digit && negb seen_exp
               then go seen_digit seen_dot true true
          else if prev_exp && (Ascii.eqb c "+" || Ascii.eqb c "-") then go seen_digit seen_dot seen_exp false
          else ([], t)
      end
  end.

Definition max_finite (neg : bool) : spec_float := S754_finite neg 9007199254740991 971.

Definition conv_double (t : text) : spec_float * bool * text :=
  let '(sgn, t1) := match t with
                    | c :: t' => if Ascii.eqb c "-" || Ascii.eqb c "+" then ([c], t') else ([], t)
                    | [] => ([], t)
                    end in
  let '(w, r) := accum_float false false false false t1 in
  match strtod (sgn ++ w) with
  | Some (neg, l, []) =>
      match lit_value neg l with
      | S754_infinity _ => (max_finite neg, false, r)
      | x => (x, true, r)
      end
  | _ => (S754_zero false, false, r)
  end.

(** ** Interface used by the generic model: printing and reading numbers of an instance. *)
Record NumIO (N : NumOps) : Type := mkNumIO {
  io_print : Z -> num N -> text;               (* out << setprecision(P) << x *)
  io_stod : text -> outcome (num N);           (* std::stod *)
  io_conv : text -> num N * bool * text        (* in >> x *)
}.
Arguments io_print {N}. Arguments io_stod {N}. Arguments io_conv {N}.

Definition F64_IO : NumIO F64 := mkNumIO F64 print_g stod conv_double.
