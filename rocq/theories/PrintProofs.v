(** * Printing numbers (Text.v) meets DecSpec.v. *)
From Coq Require Import ZArith NArith Bool Reals Lra Lia SpecFloat Ascii String List.
From Flocq Require Import Core BinarySingleNaN.
From Verif Require Import Outcome Num Text DecSpec F64Base DecProofs.
Import ListNotations.
Open Scope Z_scope.

Definition dig (d : Z) : Prop := 0 <= d <= 9.
Lemma digit_char_spec d : dig d -> digit (digit_char d) /\ Z.of_N (N_of_ascii (digit_char d)) - 48 = d.
Proof.
  unfold dig, digit_char, digit. intros H. rewrite N_ascii_embedding by lia. lia.
Qed.
Lemma dchars_digits l : Forall dig l -> digits_only (dchars l).
Proof. intros H. apply Forall_map. eapply Forall_impl; [|exact H]. intros d Hd. now apply digit_char_spec. Qed.
Lemma dchars_len l : length (dchars l) = length l. Proof. apply map_length. Qed.
Lemma dchars_app a b : dchars (a ++ b) = dchars a ++ dchars b. Proof. apply map_app. Qed.
Lemma dchars_nil l : l <> [] -> dchars l <> []. Proof. destruct l; cbn; congruence. Qed.

(** ** Decimal digits of an integer. *)
Lemma dec_digits_spec fuel : forall n acc, 0 <= n < 10 ^ Z.of_nat fuel -> (1 <= fuel)%nat ->
  exists ds, dec_digits fuel n acc = ds ++ acc /\ Forall dig ds /\ dec_value (dchars ds) = n /\ ds <> [] /\ (0 < n -> 10 ^ (zlen ds - 1) <= n).
Proof.
  induction fuel as [|fuel IH]; intros n acc Hn Hf; [lia|]. cbn [dec_digits]. destruct (Z.ltb_spec n 10) as [L|L].
  - exists [n]. split; auto. assert (D : dig n) by (unfold dig; lia). split; [auto|]. split; [|split; [congruence|intros; change (zlen [n]) with 1; cbn; lia]].
    cbn. destruct (digit_char_spec n D) as (_ & E). lia.
  - rewrite Nat2Z.inj_succ, Z.pow_succ_r in Hn by lia. assert (B : 1 <= n / 10 < 10 ^ Z.of_nat fuel).
    { split; [apply Z.div_le_lower_bound; lia|apply Z.div_lt_upper_bound; lia]. }
    assert (Fu : (1 <= fuel)%nat) by (destruct fuel; [cbn in B; lia|lia]).
    destruct (IH (n / 10) (n mod 10 :: acc)) as (ds & E & D & V & Ne & Lo); [lia|auto|]. exists (ds ++ [n mod 10]). rewrite <- app_assoc. split; auto.
    pose proof (Z.mod_pos_bound n 10 ltac:(lia)). assert (D1 : dig (n mod 10)) by (unfold dig; lia). split; [apply Forall_app; auto|].
    split; [|split; [destruct ds; discriminate|]].
    + rewrite dchars_app, dec_value_app, V. cbn. destruct (digit_char_spec _ D1) as (_ & E1). rewrite E1, Z.mul_1_r, Z.add_0_r, Z.mul_comm. symmetry. apply Z.div_mod. lia.
    + intros _. unfold zlen in *. rewrite app_length. cbn [length]. specialize (Lo ltac:(lia)). replace (Z.of_nat (length ds + 1) - 1) with (Z.succ (Z.of_nat (length ds) - 1)) by lia.
      assert (1 <= Z.of_nat (length ds)) by (destruct ds; [congruence|cbn [length]; lia]).
      rewrite Z.pow_succ_r by lia. pose proof (Z.mul_div_le n 10). lia.
Qed.
Lemma digits_spec n : 0 <= n -> Forall dig (digits n) /\ dec_value (dchars (digits n)) = n /\ digits n <> [] /\
  n < 10 ^ ndigits n /\ (0 < n -> 10 ^ (ndigits n - 1) <= n).
Proof.
  intros H. unfold ndigits, digits. destruct (dec_digits_spec (S (Z.to_nat (Z.log2 n))) n []) as (ds & E & D & V & Ne & Lo); [|lia|].
  - split; auto. rewrite Nat2Z.inj_succ, Z2Nat.id by apply Z.log2_nonneg. destruct (Z.eq_dec n 0) as [->|]; [apply Z.pow_pos_nonneg; cbn; lia|].
    destruct (Z.log2_spec n ltac:(lia)) as (_ & U). eapply Z.lt_le_trans; [exact U|]. apply Z.pow_le_mono_l. pose proof (Z.log2_nonneg n). lia.
  - rewrite app_nil_r in E. rewrite E. repeat (split; auto). rewrite <- V at 1. pose proof (dec_value_lt (dchars ds) (dchars_digits _ D)) as B. now rewrite dchars_len in B.
Qed.
Theorem print_Z_spec z : int_text (print_Z z) z.
Proof.
  unfold print_Z. destruct (Z.ltb_spec z 0).
  - destruct (digits_spec (- z)) as (D & V & Ne & _); [lia|]. exists true, ["-"%char], (dchars (digits (- z))). split; [reflexivity|]. split; [reflexivity|].
    split; [now apply dchars_nil|]. split; [now apply dchars_digits|]. unfold opp_if. lia.
  - destruct (digits_spec z) as (D & V & Ne & _); [lia|]. exists false, [], (dchars (digits z)). split; [reflexivity|]. split; [now left|].
    split; [now apply dchars_nil|]. split; [now apply dchars_digits|]. unfold opp_if. lia.
Qed.

(** ** Rounding to P significant digits. *)
Lemma div_rne_spec n d : 0 < d -> div_rne n d = ZnearestE (IZR n / IZR d).
Proof.
  intros Hd. unfold div_rne. assert (D : (0 < IZR d)%R) by now apply IZR_lt.
  pose proof (Z.div_mod n d ltac:(lia)) as DM. pose proof (Z.mod_pos_bound n d Hd) as MB.
  assert (Fr : (IZR n / IZR d - IZR (n / d) = IZR (n mod d) / IZR d)%R) by (rewrite DM at 1; rewrite plus_IZR, mult_IZR; field; lra).
  assert (I : (IZR (n mod d) / IZR d * IZR d = IZR (n mod d))%R) by (field; lra).
  assert (R0 : (0 <= IZR (n mod d) / IZR d)%R) by (apply Rmult_le_pos; [apply IZR_le; lia|left; now apply Rinv_0_lt_compat]).
  set (f := (IZR (n mod d) / IZR d)%R) in *. symmetry.
  destruct (Z.ltb_spec (2 * (n mod d)) d) as [L|L]; [|destruct (Z.ltb_spec d (2 * (n mod d))) as [L2|L2]].
  - apply Znearest_imp. rewrite Fr, Rabs_pos_eq by auto. apply IZR_lt in L. rewrite mult_IZR in L. nra.
  - apply Znearest_imp. rewrite plus_IZR. replace (IZR n / IZR d - (IZR (n / d) + 1))%R with (f - 1)%R by lra.
    apply IZR_lt in L2. rewrite mult_IZR in L2. destruct MB as (_ & MB). apply IZR_lt in MB. rewrite Rabs_left by nra. nra.
  - assert (E : 2 * (n mod d) = d) by lia. assert (F2 : f = (/ 2)%R).
    { apply Rmult_eq_reg_r with (IZR d); [|lra]. rewrite I. apply (f_equal IZR) in E. rewrite mult_IZR in E. lra. }
    assert (Fl : Zfloor (IZR n / IZR d) = n / d) by (apply Zfloor_imp; rewrite plus_IZR; lra).
    unfold Znearest. rewrite Fl, Fr, F2, Rcompare_Eq by reflexivity. destruct (Z.even (n / d)); cbn [negb]; auto.
    rewrite Zceil_floor_neq; rewrite Fl; [reflexivity|]. lra.
Qed.
Lemma dec_exponent_spec n d : 0 < n -> 0 < d ->
  (bpow radix10 (dec_exponent n d) <= IZR n / IZR d < bpow radix10 (dec_exponent n d + 1))%R.
Proof.
  intros Hn Hd. assert (D : (0 < IZR d)%R) by now apply IZR_lt. assert (N0 : (0 < IZR n)%R) by now apply IZR_lt. unfold dec_exponent.
  assert (Q : (IZR n / IZR d * IZR d = IZR n)%R) by (field; lra). set (x := (IZR n / IZR d)%R) in *.
  destruct (Z.leb_spec d n) as [L|L].
  - assert (1 <= n / d) by (apply Z.div_le_lower_bound; lia). destruct (digits_spec (n / d)) as (_ & _ & Ne & U & Lo); [lia|]. specialize (Lo ltac:(lia)).
    assert (1 <= ndigits (n / d)) by (unfold ndigits, zlen; destruct (digits (n / d)); [congruence|cbn [length]; lia]).
    replace (ndigits (n / d) - 1 + 1) with (ndigits (n / d)) by lia. rewrite !bpow10_Z by lia. split.
    + pose proof (Z.mul_div_le n d ltac:(lia)) as M. apply IZR_le in Lo, M. rewrite mult_IZR in M. nra.
    + assert (M : n < d * 10 ^ ndigits (n / d)) by (pose proof (Z.mul_succ_div_gt n d ltac:(lia)); nia).
      apply IZR_lt in M. rewrite mult_IZR in M. nra.
  - set (K := ndigits ((d - 1) / n)). assert (1 <= (d - 1) / n) by (apply Z.div_le_lower_bound; lia). destruct (digits_spec ((d - 1) / n)) as (_ & _ & Ne & U & Lo); [lia|]. specialize (Lo ltac:(lia)).
    fold K in U, Lo. assert (1 <= K) by (unfold K, ndigits, zlen; destruct (digits ((d - 1) / n)); [congruence|cbn [length]; lia]).
    split.
    + rewrite bpow_opp, bpow10_Z by lia. assert (M : d <= n * 10 ^ K) by (pose proof (Z.mul_succ_div_gt (d - 1) n ltac:(lia)); nia).
      apply IZR_le in M. rewrite mult_IZR in M. assert (P : (0 < IZR (10 ^ K))%R) by (apply IZR_lt, Z.pow_pos_nonneg; lia).
      assert (I : (IZR (10 ^ K) * / IZR (10 ^ K) = 1)%R) by (field; lra). assert (0 < / IZR (10 ^ K))%R by now apply Rinv_0_lt_compat.
      apply Rmult_le_reg_r with (IZR (10 ^ K)); auto. rewrite Rmult_comm, I. apply Rmult_le_reg_r with (IZR d); auto. nra.
    + replace (- K + 1) with (- (K - 1)) by lia. rewrite bpow_opp, bpow10_Z by lia.
      assert (M : n * 10 ^ (K - 1) < d) by (pose proof (Z.mul_div_le (d - 1) n ltac:(lia)); nia).
      apply IZR_lt in M. rewrite mult_IZR in M. assert (P : (0 < IZR (10 ^ (K - 1)))%R) by (apply IZR_lt, Z.pow_pos_nonneg; lia).
      assert (I : (IZR (10 ^ (K - 1)) * / IZR (10 ^ (K - 1)) = 1)%R) by (field; lra).
      apply Rmult_lt_reg_r with (IZR (10 ^ (K - 1))); auto. rewrite (Rmult_comm (/ _)), I. apply Rmult_lt_reg_r with (IZR d); auto. nra.
Qed.
Global Instance prec10 P : 1 <= P -> Prec_gt_0 P. Proof. unfold Prec_gt_0. lia. Qed.
Lemma round_dec_spec P n d : 1 <= P -> 0 < n -> 0 < d -> let '(q, X) := round_dec P n d in
  10 ^ (P - 1) <= q < 10 ^ P /\ (IZR q * bpow radix10 (X - (P - 1)))%R = round10 P (IZR n / IZR d).
Proof.
  intros HP Hn Hd. pose proof (dec_exponent_spec n d Hn Hd) as (L & U). unfold round_dec. set (X := dec_exponent n d) in *. set (k := P - 1 - X).
  assert (D : (0 < IZR d)%R) by now apply IZR_lt.
  assert (Eq : (if 0 <=? k then div_rne (n * 10 ^ k) d else div_rne n (d * 10 ^ (- k))) = ZnearestE (IZR n / IZR d * bpow radix10 k)).
  { destruct (Z.leb_spec 0 k).
    - rewrite div_rne_spec, mult_IZR by auto. rewrite bpow10_Z by lia. f_equal. field. lra.
    - assert (0 < 10 ^ (- k)) by (apply Z.pow_pos_nonneg; lia). rewrite div_rne_spec, mult_IZR by nia. rewrite bpow10_neg by lia. f_equal. field.
      split; apply Rgt_not_eq; try apply IZR_lt; auto. }
  rewrite Eq. set (x := (IZR n / IZR d)%R) in *. set (q := ZnearestE (x * bpow radix10 k)).
  assert (Mg : mag radix10 x = (X + 1) :> Z).
  { apply mag_unique_pos. replace (X + 1 - 1) with X by lia. auto. }
  assert (Rd : round10 P x = (IZR q * bpow radix10 (X - (P - 1)))%R).
  { unfold round10, round, scaled_mantissa, cexp, F2R. cbn [Fnum Fexp]. rewrite Mg. unfold FLX_exp. replace (- (X + 1 - P)) with k by (unfold k; lia).
    replace (X + 1 - P) with (X - (P - 1)) by lia. reflexivity. }
  assert (S : (bpow radix10 (P - 1) <= x * bpow radix10 k < bpow radix10 P)%R).
  { pose proof (bpow_gt_0 radix10 k). replace (P - 1) with (X + k) by (unfold k; lia). replace P with (X + 1 + k) at 1 by (unfold k; lia). rewrite (bpow_plus radix10 X k), (bpow_plus radix10 (X + 1) k). split; [apply Rmult_le_compat_r; lra|apply Rmult_lt_compat_r; lra]. }
  assert (Q1 : 10 ^ (P - 1) <= q). { rewrite <- (Zrnd_IZR ZnearestE (10 ^ (P - 1))). apply (Zrnd_le ZnearestE). rewrite <- bpow10_Z by lia. lra. }
  assert (Q2 : q <= 10 ^ P). { rewrite <- (Zrnd_IZR ZnearestE (10 ^ P)). apply (Zrnd_le ZnearestE). rewrite <- bpow10_Z by lia. lra. }
  destruct (Z.eqb_spec q (10 ^ P)) as [E|E].
  - split; [split; [lia|]; apply Z.pow_lt_mono_r; lia|]. rewrite Rd, E. rewrite <- !bpow10_Z by lia. rewrite <- !bpow_plus. f_equal. lia.
  - split; [lia|auto].
Qed.

(** ** The printed text. *)
Lemma strip_spec l : exists j, l = strip_zeros l ++ repeat 0 j.
Proof.
  induction l as [|d l (j & IH)]; [exists O; reflexivity|]. cbn [strip_zeros]. destruct (strip_zeros l) as [|x s] eqn:E.
  - destruct (Z.eqb_spec d 0) as [->|].
    + exists (S j). cbn. now rewrite IH at 1.
    + exists j. cbn. now rewrite IH at 1.
  - exists j. rewrite IH at 1. reflexivity.
Qed.
Lemma value_zeros j : dec_value (dchars (repeat 0 j)) = 0.
Proof. induction j as [|j IH]; [reflexivity|]. change (dchars (repeat 0 (S j))) with (digit_char 0 :: dchars (repeat 0 j)). cbn [dec_value]. rewrite IH. reflexivity. Qed.
Lemma with_frac_spec ip fp : Forall dig ip -> Forall dig fp -> ip <> [] ->
  exists fp' point j, with_frac ip fp = dchars ip ++ point /\ digits_only fp' /\ (point = "."%char :: fp' \/ (point = [] /\ fp' = [])) /\
    zlen fp = zlen fp' + Z.of_nat j /\ dec_value (dchars (ip ++ fp)) = dec_value (dchars ip ++ fp') * 10 ^ Z.of_nat j.
Proof.
  intros Hi Hf Hn. unfold with_frac. destruct (strip_spec fp) as (j & E). set (s := strip_zeros fp) in *.
  assert (V : zlen fp = zlen s + Z.of_nat j /\ dec_value (dchars (ip ++ fp)) = dec_value (dchars ip ++ dchars s) * 10 ^ Z.of_nat j).
  { rewrite E. unfold zlen. rewrite app_length, repeat_length, Nat2Z.inj_add. split; auto.
    rewrite app_assoc, dchars_app, dec_value_app, value_zeros, dchars_len, repeat_length, dchars_app. lia. }
  assert (Ds : digits_only (dchars s)) by (apply dchars_digits; rewrite E in Hf; apply Forall_app in Hf; tauto).
  exists (dchars s). destruct s as [|x s'] eqn:Es.
  - exists [], j. rewrite app_nil_r. split; [reflexivity|]. split; [constructor|]. split; [right; auto|]. rewrite app_nil_r in *. exact V.
  - exists ("."%char :: dchars (x :: s')), j. split; auto. split; auto. split; [now left|]. unfold zlen in *. rewrite dchars_len. exact V.
Qed.
(** A fraction with given digits and exponent. *)
Lemma dec_text_intro neg ip fp expo x k : Forall dig ip -> Forall dig fp -> ip <> [] ->
  ((expo = [] /\ x = 0) \/ exists c xt, (c = "e"%char \/ c = "E"%char) /\ expo = c :: xt /\ int_text xt x) ->
  k = x - zlen fp -> 
  exists m e, dec_text (sign_text neg ++ with_frac ip fp ++ expo) neg m e /\ 0 <= m /\
    dec_real neg m e = (IZR (opp_if neg (dec_value (dchars (ip ++ fp)))) * bpow radix10 k)%R /\ (m = 0 -> dec_value (dchars (ip ++ fp)) = 0).
Proof.
  intros Hi Hf Hn He ->. destruct (with_frac_spec ip fp Hi Hf Hn) as (fp' & point & j & E & D & Hp & Hl & Hv).
  exists (dec_value (dchars ip ++ fp')), (x - Z.of_nat (length fp')). split; [|split; [|split]].
  - exists (sign_text neg), (dchars ip), fp', point, expo, x. rewrite E, <- app_assoc. split; [reflexivity|]. split; [destruct neg; cbn; auto|].
    split; [now apply dchars_digits|]. split; auto. split; [apply dchars_nil in Hn; destruct (dchars ip); [congruence|discriminate]|]. auto.
  - apply dec_value_nonneg. apply Forall_app. split; auto. now apply dchars_digits.
  - unfold dec_real. rewrite Hv, Hl. unfold zlen. set (a := dec_value (dchars ip ++ fp')).
    replace (opp_if neg (a * 10 ^ Z.of_nat j)) with (opp_if neg a * 10 ^ Z.of_nat j) by (destruct neg; cbn [opp_if]; lia).
    rewrite mult_IZR, <- bpow10_Z by lia. rewrite Rmult_assoc, <- bpow_plus. f_equal. f_equal. lia.
  - intros Z0. rewrite Hv, Z0. reflexivity.
Qed.
Lemma print_exp_spec X : exists xt, print_exp X = "e"%char :: xt /\ int_text xt X.
Proof.
  unfold print_exp. eexists. split; [reflexivity|]. destruct (digits_spec (Z.abs X)) as (D & V & Ne & _); [lia|].
  set (ds := if Z.abs X <? 10 then digit_char 0 :: dchars (digits (Z.abs X)) else dchars (digits (Z.abs X))).
  assert (K : ds <> [] /\ digits_only ds /\ dec_value ds = Z.abs X).
  { unfold ds. apply dchars_nil in Ne. apply dchars_digits in D. destruct (_ <? _); [|auto]. split; [discriminate|]. split; [|cbn [dec_value]; rewrite V; reflexivity].
    constructor; auto. apply (digit_char_spec 0). unfold dig. lia. }
  destruct K as (K1 & K2 & K3). destruct (Z.ltb_spec X 0).
  - exists true, ["-"%char], ds. split; [reflexivity|]. split; [reflexivity|]. split; auto. split; auto. unfold opp_if. lia.
  - exists false, ["+"%char], ds. split; [reflexivity|]. split; [now right|]. split; auto. split; auto. unfold opp_if. lia.
Qed.
Lemma Forall_firstn {A} (P : A -> Prop) n l : Forall P l -> Forall P (firstn n l).
Proof. intros H. rewrite <- (firstn_skipn n l) in H. now apply Forall_app in H. Qed.
Lemma Forall_skipn {A} (P : A -> Prop) n l : Forall P l -> Forall P (skipn n l).
Proof. intros H. rewrite <- (firstn_skipn n l) in H. now apply Forall_app in H. Qed.
Lemma print_dec_spec P q X neg : 1 <= P -> 10 ^ (P - 1) <= q < 10 ^ P ->
  exists m e, dec_text (sign_text neg ++ print_dec P q X) neg m e /\ 0 < m /\ dec_real neg m e = (IZR (opp_if neg q) * bpow radix10 (X - (P - 1)))%R.
Proof.
  intros HP Hq. assert (0 < 10 ^ (P - 1)) by (apply Z.pow_pos_nonneg; lia). destruct (digits_spec q) as (D & V & Ne & U & Lo); [lia|]. specialize (Lo ltac:(lia)).
  assert (Len : zlen (digits q) = P).
  { unfold ndigits in U, Lo. set (K := zlen (digits q)) in *. assert (1 <= K) by (unfold K, zlen; destruct (digits q); [congruence|cbn [length]; lia]).
    destruct (Z.lt_trichotomy K P) as [L|[E|L]]; auto; exfalso.
    - assert (10 ^ K <= 10 ^ (P - 1)) by (apply Z.pow_le_mono_r; lia). lia.
    - assert (10 ^ P <= 10 ^ (K - 1)) by (apply Z.pow_le_mono_r; lia). lia. }
  assert (Fin : forall m e, 0 <= m -> dec_real neg m e = (IZR (opp_if neg q) * bpow radix10 (X - (P - 1)))%R /\ (m = 0 -> q = 0) -> 0 < m /\ dec_real neg m e = (IZR (opp_if neg q) * bpow radix10 (X - (P - 1)))%R).
  { intros m e Hm (E & Z0). split; auto. destruct (Z.eq_dec m 0) as [M|]; [specialize (Z0 M); lia|lia]. }
  unfold print_dec. destruct (_ && _) eqn:C; [destruct (Z.leb_spec 0 X) as [HX|HX]|].
  - apply andb_prop in C as (_ & C). apply Z.ltb_lt in C.
    destruct (dec_text_intro neg (firstn (Z.to_nat (X + 1)) (digits q)) (skipn (Z.to_nat (X + 1)) (digits q)) [] 0 (X - (P - 1))) as (m & e & T & Hm & E & Z0).
    + now apply Forall_firstn. + now apply Forall_skipn.
    + destruct (digits q) as [|x l]; [congruence|]. replace (Z.to_nat (X + 1)) with (S (Z.to_nat X)) by lia. discriminate.
    + left; auto.
    + unfold zlen in *. rewrite skipn_length. lia.
    + rewrite firstn_skipn, V in E, Z0. rewrite app_nil_r in T. exists m, e. auto.
  - destruct (dec_text_intro neg [0] (repeat 0 (Z.to_nat (- X - 1)) ++ digits q) [] 0 (X - (P - 1))) as (m & e & T & Hm & E & Z0).
    + constructor; auto. unfold dig. lia.
    + apply Forall_app. split; auto. clear. induction (Z.to_nat (- X - 1)); cbn; constructor; auto. unfold dig. lia.
    + discriminate. + left; auto.
    + unfold zlen in *. rewrite app_length, repeat_length. lia.
    + rewrite app_assoc, dchars_app, dec_value_app, V in E, Z0. change ([0] ++ repeat 0 (Z.to_nat (- X - 1))) with (repeat 0 (S (Z.to_nat (- X - 1)))) in *. rewrite value_zeros in *. cbn [Z.mul Z.add] in *.
      rewrite app_nil_r in T. exists m, e. auto.
  - destruct (print_exp_spec X) as (xt & Ex & Hx).
    destruct (dec_text_intro neg (firstn 1 (digits q)) (skipn 1 (digits q)) (print_exp X) X (X - (P - 1))) as (m & e & T & Hm & E & Z0).
    + now apply Forall_firstn. + now apply Forall_skipn.
    + destruct (digits q) as [|x l]; [congruence|]. discriminate.
    + right. exists "e"%char, xt. auto.
    + unfold zlen in *. rewrite skipn_length. lia.
    + rewrite firstn_skipn, V in E, Z0. exists m, e. auto.
Qed.
Lemma frac_val m e : let '(n, d) := fin_frac m e in 0 < n /\ 0 < d /\ (IZR n / IZR d)%R = F2R (Float radix2 (Zpos m) e).
Proof.
  unfold fin_frac. destruct (Z.leb_spec 0 e).
  - split; [assert (0 < 2 ^ e) by (apply Z.pow_pos_nonneg; lia); nia|]. split; [lia|]. unfold F2R. cbn [Fnum Fexp]. rewrite mult_IZR. change 2 with (radix_val radix2). rewrite (IZR_Zpower radix2) by auto. field.
  - split; [lia|]. assert (0 < 2 ^ (- e)) by (apply Z.pow_pos_nonneg; lia). split; auto. unfold F2R. cbn [Fnum Fexp].
    replace (bpow radix2 e) with (/ bpow radix2 (- e))%R by (rewrite <- bpow_opp; f_equal; lia). rewrite <- (IZR_Zpower radix2) by lia. reflexivity.
Qed.
Lemma round10_opp P r : round10 P (- r) = (- round10 P r)%R.
Proof. apply round_NE_opp. Qed.
(** A finite double prints as a decimal number: its value rounded to P digits. *)
Theorem print_g_spec P x : 1 <= P -> fin64 x -> exists m e, dec_text (print_g P x) (sign_SF x) m e /\
  match x with S754_zero _ => m = 0 | _ => 0 < m end /\ dec_real (sign_SF x) m e = round10 P (val x).
Proof.
  intros HP (_ & F). destruct x as [s|s| |s p ex]; try contradiction.
  - exists 0, 0. cbn [print_g sign_SF val]. split; [|split; [auto|]].
    + exists (sign_text s), ["0"%char], [], [], [], 0. split; [reflexivity|]. split; [destruct s; cbn; auto|]. split; [constructor; [|constructor]; unfold digit; cbn; lia|].
      split; [constructor|]. split; [discriminate|]. split; [right; auto|]. split; [left; auto|]. split; reflexivity.
    + unfold dec_real. replace (opp_if s 0) with 0 by (destruct s; reflexivity). rewrite Rmult_0_l. symmetry. apply round_0. auto with typeclass_instances.
  - cbn [print_g sign_SF val]. pose proof (frac_val p ex) as Fv. destruct (fin_frac p ex) as [n d]. destruct Fv as (Hn & Hd & Ev).
    pose proof (round_dec_spec P n d HP Hn Hd) as R. destruct (round_dec P n d) as [q X]. destruct R as (Hq & Er).
    destruct (print_dec_spec P q X s HP Hq) as (m & e & T & Hm & E). exists m, e. split; auto. split; auto. rewrite E.
    rewrite F2R_cond_Zopp, <- Ev. destruct s; cbn [opp_if cond_Ropp]; [rewrite round10_opp, opp_IZR|]; rewrite <- Er; lra.
Qed.

(** The characters of a number. *)
Lemma int_text_chars t z c : int_text t z -> In c t -> digit c \/ In c ["-"; "+"]%char.
Proof.
  intros (neg & s & ds & -> & Hs & _ & Hd & _) H. apply in_app_or in H as [H|H].
  - right. destruct neg; cbn in Hs; [subst s|destruct Hs as [->| ->]]; cbn in *; tauto.
  - left. unfold digits_only in Hd. rewrite Forall_forall in Hd. auto.
Qed.
Lemma dec_text_chars t neg m e c : dec_text t neg m e -> In c t -> digit c \/ In c ["-"; "+"; "."; "e"; "E"]%char.
Proof.
  intros (s & ip & fp & point & expo & x & -> & Hs & Hi & Hf & _ & Hp & He & _) H. unfold digits_only in *. rewrite Forall_forall in Hi, Hf.
  apply in_app_or in H as [H|H]; [|apply in_app_or in H as [H|H]; [|apply in_app_or in H as [H|H]]].
  - right. destruct neg; cbn in Hs; [subst s|destruct Hs as [->| ->]]; cbn in *; tauto.
  - auto.
  - destruct Hp as [->|(-> & _)]; [|destruct H]. destruct H as [<-|H]; [cbn; auto 6|auto].
  - destruct He as [(-> & _)|(c0 & xt & Hc & -> & Hx)]; [destruct H|]. destruct H as [<-|H]; [cbn; destruct Hc; auto 8|].
    destruct (int_text_chars _ _ _ Hx H) as [|K]; auto. cbn in *. tauto.
Qed.
