(** * Reading and printing decimal numbers (Text.v) meets DecSpec.v. *)
From Coq Require Import ZArith NArith Bool Reals Lra Lia SpecFloat Ascii String List.
From Flocq Require Import Core BinarySingleNaN.
From Verif Require Import Outcome Num Text DecSpec F64Base.
Import ListNotations.
Open Scope Z_scope.

(** ** Digits. *)
Lemma digit_val_spec c : digit c -> digit_val c = Some (N_of_ascii c - 48)%N.
Proof. unfold digit, digit_val. intros (H1 & H2). apply N.leb_le in H1, H2. now rewrite H1, H2. Qed.
Lemma digit_val_none c : ~ digit c -> digit_val c = None.
Proof.
  unfold digit, digit_val. intros H. destruct (N.leb_spec 48 (N_of_ascii c)); auto. destruct (N.leb_spec (N_of_ascii c) 57); auto. exfalso. apply H. auto.
Qed.
Lemma digit_range c : digit c -> 0 <= Z.of_N (N_of_ascii c) - 48 <= 9.
Proof. unfold digit. lia. Qed.
Lemma dec_value_nonneg t : digits_only t -> 0 <= dec_value t.
Proof.
  induction 1 as [|c t Hc _ IH]; cbn [dec_value]; [lia|]. apply digit_range in Hc. pose proof (Z.pow_nonneg 10 (Z.of_nat (length t)) ltac:(lia)). nia.
Qed.
Lemma dec_value_lt t : digits_only t -> dec_value t < 10 ^ Z.of_nat (length t).
Proof.
  induction 1 as [|c t Hc _ IH]; [reflexivity|]. cbn [dec_value length]. apply digit_range in Hc. rewrite Nat2Z.inj_succ, Z.pow_succ_r by lia.
  pose proof (Z.pow_nonneg 10 (Z.of_nat (length t)) ltac:(lia)). nia.
Qed.
Lemma dec_value_app a b : dec_value (a ++ b) = dec_value a * 10 ^ Z.of_nat (length b) + dec_value b.
Proof.
  induction a as [|c a IH]; cbn [app dec_value]; [lia|]. rewrite IH, app_length, Nat2Z.inj_add, Z.pow_add_r by lia. ring.
Qed.

(** The rest [r] does not continue a string of digits. *)
Definition no_digit (r : text) : Prop := match r with c :: _ => ~ digit c | [] => True end.
Lemma take_digits_spec ds : forall acc cnt r, digits_only ds -> no_digit r ->
  take_digits digit_val 10 acc cnt (ds ++ r) = (Z.to_N (Z.of_N acc * 10 ^ zlen ds + dec_value ds), cnt + zlen ds, r).
Proof.
  induction ds as [|c ds IH]; intros acc cnt r H Hr.
  - cbn [app]. assert (E : take_digits digit_val 10 acc cnt r = (acc, cnt, r)).
    { destruct r as [|c r]; cbn [take_digits]; auto. cbn in Hr. now rewrite digit_val_none. }
    rewrite E. unfold zlen. cbn [length dec_value]. change (10 ^ Z.of_nat 0) with 1. rewrite Z.mul_1_r, !Z.add_0_r, N2Z.id. reflexivity.
  - inversion H as [|? ? Hc Hd]; subst. cbn [app take_digits]. rewrite digit_val_spec by auto. rewrite IH by auto.
    unfold zlen. cbn [length dec_value]. rewrite Nat2Z.inj_succ, Z.pow_succ_r by lia. pose proof (digit_range _ Hc). f_equal. f_equal; [|lia].
    f_equal. unfold digit in Hc. rewrite N2Z.inj_add, N2Z.inj_mul, N2Z.inj_sub by lia. change (Z.of_N 10) with 10. change (Z.of_N 48) with 48. ring.
Qed.
Lemma take_digits_0 ds r : digits_only ds -> no_digit r -> take_digits digit_val 10 0%N 0 (ds ++ r) = (Z.to_N (dec_value ds), zlen ds, r).
Proof. intros. rewrite take_digits_spec by auto. reflexivity. Qed.

(** ** Characters. *)
Lemma char_not_digit c : In c ["-"; "+"; "."; "e"; "E"]%char -> ~ digit c.
Proof. unfold digit. cbn. intros [<-|[<-|[<-|[<-|[<-|[]]]]]]; vm_compute; intros [A B]; congruence. Qed.
Lemma eqb_digit c d : digit c -> ~ digit d -> Ascii.eqb c d = false.
Proof. intros H1 H2. destruct (Ascii.eqb_spec c d); auto. subst. contradiction. Qed.
Lemma lower_digit c : digit c -> lower_char c = c.
Proof. unfold digit, lower_char. intros H. destruct (N.leb_spec 65 (N_of_ascii c)); cbn [andb]; auto. lia. Qed.
Lemma space_not_digit c : is_space c = true -> ~ digit c.
Proof. unfold is_space, digit. destruct (N.leb_spec 9 (N_of_ascii c)), (N.leb_spec (N_of_ascii c) 13), (N.eqb_spec (N_of_ascii c) 32); cbn; intros; try discriminate; lia. Qed.
Lemma digit_not_space c : digit c -> is_space c = false.
Proof. intros H. destruct (is_space c) eqn:E; auto. apply space_not_digit in E. contradiction. Qed.

(** ** Signs. *)
Lemma take_sign_spec neg s r : sign_of neg s -> (forall c r', r = c :: r' -> c <> "-"%char /\ c <> "+"%char) -> take_sign (s ++ r) = (neg, r).
Proof.
  intros H Hr. destruct neg; cbn in H.
  - subst s. reflexivity.
  - destruct H as [->| ->]; [|reflexivity]. cbn [app]. destruct r as [|c r]; auto. destruct (Hr c r eq_refl) as (H1 & H2). cbn [take_sign].
    destruct (Ascii.eqb_spec c "-"); [congruence|]. destruct (Ascii.eqb_spec c "+"); [congruence|]. reflexivity.
Qed.
Lemma digit_no_sign c : digit c -> c <> "-"%char /\ c <> "+"%char.
Proof. intros H. split; intros ->; apply (char_not_digit _) in H; auto; cbn; auto. Qed.

(** ** Integers. *)
Lemma digs_head ds r : digits_only ds -> ds <> [] -> forall c r', ds ++ r = c :: r' -> digit c.
Proof. intros H Hn c r' E. destruct ds; [congruence|]. injection E as <- _. now inversion H. Qed.
Lemma conv_int_spec t z r : int_text t z -> int_min <= z <= int_max -> no_digit r -> conv_int (t ++ r) = (z, true, r).
Proof.
  intros (neg & s & ds & -> & Hs & Hn & Hd & ->) Hz Hr. unfold conv_int. rewrite <- app_assoc.
  rewrite (take_sign_spec neg s (ds ++ r)); auto; [|intros c r' E; apply digit_no_sign; eapply digs_head; eauto].
  rewrite take_digits_0 by auto. destruct (Z.eqb_spec (zlen ds) 0) as [E|_]; [destruct ds; [congruence|unfold zlen in E; cbn in E; lia]|].
  pose proof (dec_value_nonneg ds Hd). rewrite Z2N.id by lia. unfold opp_if in *. 
  destruct (Z.ltb_spec (if neg then - dec_value ds else dec_value ds) int_min); [lia|].
  destruct (Z.ltb_spec int_max (if neg then - dec_value ds else dec_value ds)); [lia|]. reflexivity.
Qed.
Lemma skip_nospace t : (forall c r, t = c :: r -> is_space c = false) -> skip_space t = t.
Proof. intros H. destruct t as [|c t]; auto. cbn. now rewrite (H c t eq_refl). Qed.
Lemma sign_head neg s r c r' : sign_of neg s -> s ++ r = c :: r' -> c = "-"%char \/ c = "+"%char \/ (s = [] /\ r = c :: r').
Proof.
  intros H E. destruct neg; cbn in H; [subst s|destruct H as [->| ->]]; cbn in E; [left|right; right|right; left]; try (now injection E as <- _); auto.
Qed.
Lemma int_head t z c r : int_text t z -> t = c :: r -> is_space c = false.
Proof.
  intros (neg & s & ds & -> & Hs & Hn & Hd & _) E. apply (sign_head neg s) in E as [-> |[-> |(_ & E)]]; auto. apply digit_not_space.
  destruct ds; [congruence|]. injection E as <- _. now inversion Hd.
Qed.
Lemma int_text_nonempty t z : int_text t z -> t <> [].
Proof. intros (neg & s & ds & -> & _ & Hn & _) E. apply app_eq_nil in E. tauto. Qed.
Lemma stoi_spec t z r : int_text t z -> int_min <= z <= int_max -> no_digit r -> stoi (t ++ r) = Ok z.
Proof.
  intros H Hz Hr. unfold stoi. rewrite skip_nospace.
  - destruct H as (neg & s & ds & -> & Hs & Hn & Hd & ->). rewrite <- app_assoc.
    rewrite (take_sign_spec neg s (ds ++ r)); auto; [|intros c r' E; apply digit_no_sign; eapply digs_head; eauto].
    rewrite take_digits_0 by auto. destruct (Z.eqb_spec (zlen ds) 0) as [E|_]; [destruct ds; [congruence|unfold zlen in E; cbn in E; lia]|].
    pose proof (dec_value_nonneg ds Hd). rewrite Z2N.id by lia. unfold opp_if in *.
    destruct (Z.leb_spec int_min (if neg then - dec_value ds else dec_value ds)); [|lia].
    destruct (Z.leb_spec (if neg then - dec_value ds else dec_value ds) int_max); [|lia]. reflexivity.
  - intros c r' E. destruct t as [|c0 t]; [now apply int_text_nonempty in H|]. injection E as <- _. eapply int_head; eauto.
Qed.

(** ** Decimal numbers. *)
(** What follows a number: nothing, or a character that cannot continue it. *)
Definition stops (r : text) : Prop :=
  match r with c :: _ => ~ digit c /\ c <> "."%char /\ lower_char c <> "e"%char /\ lower_char c <> "x"%char | [] => True end.
Lemma stops_no_digit r : stops r -> no_digit r.
Proof. destruct r; cbn; tauto. Qed.

Lemma take_exp_spec expo x r : ((expo = [] /\ x = 0) \/ exists c xt, (c = "e"%char \/ c = "E"%char) /\ expo = c :: xt /\ int_text xt x) -> stops r ->
  take_exp "e" (expo ++ r) = (x, r).
Proof.
  intros [(-> & ->)|(c & xt & Hc & -> & (neg & s & ds & -> & Hs & Hn & Hd & ->))] Hr.
  - cbn [app]. destruct r as [|c r]; auto. cbn [take_exp]. cbn in Hr. destruct (Ascii.eqb_spec (lower_char c) "e"); [tauto|auto].
  - cbn [app take_exp]. replace (Ascii.eqb (lower_char c) "e") with true by (destruct Hc as [->| ->]; reflexivity). rewrite <- app_assoc.
    rewrite (take_sign_spec neg s (ds ++ r)); auto; [|intros c0 r' E; apply digit_no_sign; eapply digs_head; eauto].
    rewrite take_digits_0 by (auto using stops_no_digit). destruct (Z.eqb_spec (zlen ds) 0) as [E|_]; [destruct ds; [congruence|unfold zlen in E; cbn in E; lia]|].
    rewrite Z2N.id by now apply dec_value_nonneg. reflexivity.
Qed.
Lemma expo_stops expo x r : ((expo = [] /\ x = 0) \/ exists c xt, (c = "e"%char \/ c = "E"%char) /\ expo = c :: xt /\ int_text xt x) -> stops r ->
  no_digit (expo ++ r) /\ (forall c t, expo ++ r = c :: t -> c <> "."%char /\ lower_char c <> "x"%char).
Proof.
  intros [(-> & ->)|(c & xt & Hc & -> & _)] Hr.
  - cbn [app]. split; [now apply stops_no_digit|]. intros c t ->. cbn in Hr. tauto.
  - split; [cbn; apply char_not_digit; cbn; destruct Hc; auto 6|]. intros c' t E. injection E as <- _. destruct Hc as [->| ->]; split; (discriminate || (vm_compute; discriminate)).
Qed.
Lemma take_mant_spec ip fp point rest : digits_only ip -> digits_only fp -> ip ++ fp <> [] ->
  (point = "."%char :: fp \/ (point = [] /\ fp = [])) -> no_digit rest -> (forall c t, rest = c :: t -> c <> "."%char) ->
  take_mant digit_val 10 (ip ++ point ++ rest) = (Z.to_N (dec_value (ip ++ fp)), zlen fp, zlen (ip ++ fp), rest).
Proof.
  intros Hi Hf Hn Hp Hr Hdot. unfold take_mant. destruct Hp as [->|(-> & ->)].
  - rewrite take_digits_0; auto; [|cbn; apply char_not_digit; cbn; auto]. cbn [app]. rewrite Ascii.eqb_refl.
    rewrite take_digits_spec by auto. rewrite Z2N.id by now apply dec_value_nonneg.
    rewrite Z.add_0_l. destruct (Z.eqb_spec (zlen ip + zlen fp) 0) as [E|_]; [exfalso; apply Hn; destruct ip, fp; auto; unfold zlen in E; cbn in E; lia|].
    rewrite dec_value_app. unfold zlen. rewrite app_length, Nat2Z.inj_add. reflexivity.
  - cbn [app]. rewrite take_digits_0 by auto. rewrite app_nil_r in *. destruct rest as [|c rest]; [reflexivity|].
    destruct (Ascii.eqb_spec c "."); [exfalso; eapply Hdot; eauto|]. reflexivity.
Qed.

Lemma dec_head s neg ip fp point expo r : sign_of neg s -> digits_only ip -> digits_only fp -> ip ++ fp <> [] ->
  (point = "."%char :: fp \/ (point = [] /\ fp = [])) ->
  exists c t, ip ++ point ++ expo ++ r = c :: t /\ (digit c \/ c = "."%char).
Proof.
  intros Hs Hi Hf Hn Hp. destruct ip as [|c ip]; [|exists c, (ip ++ point ++ expo ++ r); inversion Hi; auto].
  destruct Hp as [->|(_ & ->)]; [|cbn in Hn; congruence]. cbn. eauto.
Qed.
Lemma strtod_spec t neg m e r : dec_text t neg m e -> stops r -> strtod (t ++ r) = Some (neg, LDec (Z.to_N m) e, r).
Proof.
  intros (s & ip & fp & point & expo & x & -> & Hs & Hi & Hf & Hn & Hp & He & -> & ->) Hr. unfold strtod. rewrite <- !app_assoc.
  destruct (dec_head s neg ip fp point expo r Hs Hi Hf Hn Hp) as (c & t' & Et & Hc).
  assert (Ns : c <> "-"%char /\ c <> "+"%char) by (destruct Hc as [Hc| ->]; [now apply digit_no_sign|split; discriminate]).
  assert (Sp : is_space c = false) by (destruct Hc as [Hc| ->]; [now apply digit_not_space|reflexivity]).
  rewrite skip_nospace.
  2:{ intros c0 r0 E. apply (sign_head neg) in E as [-> |[-> |(_ & E)]]; auto. rewrite Et in E. now injection E as <- _. }
  rewrite (take_sign_spec neg) by (auto; intros c0 r0 E; rewrite Et in E; now injection E as <- _).
  assert (Lo : lower_char c = c) by (destruct Hc as [Hc| ->]; [now apply lower_digit|reflexivity]).
  assert (I1 : prefix_ci (T_ "inf") (ip ++ point ++ expo ++ r) = false).
  { rewrite Et. change (T_ "inf") with ("i"%char :: T_ "nf"). cbn [prefix_ci]. rewrite Lo. destruct Hc as [Hc| ->]; [|reflexivity]. unfold digit in Hc.
    destruct (Ascii.eqb_spec "i" c) as [<-|]; [vm_compute in Hc; destruct Hc; congruence|reflexivity]. }
  assert (I2 : prefix_ci (T_ "nan") (ip ++ point ++ expo ++ r) = false).
  { rewrite Et. change (T_ "nan") with ("n"%char :: T_ "an"). cbn [prefix_ci]. rewrite Lo. destruct Hc as [Hc| ->]; [|reflexivity]. unfold digit in Hc.
    destruct (Ascii.eqb_spec "n" c) as [<-|]; [vm_compute in Hc; destruct Hc; congruence|reflexivity]. }
  destruct (expo_stops expo x r He Hr) as (X1 & X2).
  assert (I3 : prefix_ci (T_ "0x") (ip ++ point ++ expo ++ r) = false).
  { change (T_ "0x") with ["0"; "x"]%char.
    assert (Hx : forall c, digit c -> Ascii.eqb "x" (lower_char c) = false).
    { intros c0 H. rewrite lower_digit by auto. unfold digit in H. destruct (Ascii.eqb_spec "x" c0) as [<-|]; auto. vm_compute in H; destruct H; congruence. }
    destruct ip as [|c1 ip].
    - destruct Hp as [->|(_ & ->)]; [reflexivity|cbn in Hn; congruence].
    - cbn [app prefix_ci]. destruct (Ascii.eqb "0" (lower_char c1)); auto. cbn [andb]. destruct ip as [|c2 ip].
      + cbn [app]. destruct Hp as [->|(-> & _)]; [reflexivity|]. cbn [app]. destruct (expo ++ r) as [|c2 u]; auto. destruct (X2 c2 u eq_refl) as (_ & X3).
        destruct (Ascii.eqb_spec "x" (lower_char c2)); [congruence|reflexivity].
      + cbn [app]. inversion Hi as [|? ? _ Hi']; subst. inversion Hi' as [|? ? H2 _]; subst. now rewrite Hx. }
  rewrite I1, I2, I3. rewrite (take_mant_spec ip fp point (expo ++ r)) by (auto; intros c0 u E; now apply (X2 c0 u)).
  destruct (Z.eqb_spec (zlen (ip ++ fp)) 0) as [E|_]; [exfalso; apply Hn; destruct (ip ++ fp); auto; unfold zlen in E; cbn in E; lia|].
  rewrite (take_exp_spec expo x r He Hr). reflexivity.
Qed.

(** ** [in >> double]. *)
Definition nonempty {A} (l : list A) : bool := match l with [] => false | _ => true end.
Lemma accum_digits ds : forall sd sp se pe r, digits_only ds ->
  accum_float sd sp se pe (ds ++ r) = let '(w, r') := accum_float (sd || nonempty ds) sp se (pe && negb (nonempty ds)) r in (ds ++ w, r').
Proof.
  induction ds as [|c ds IH]; intros sd sp se pe r H.
  - cbn [app nonempty negb]. rewrite orb_false_r, andb_true_r. now destruct (accum_float sd sp se pe r).
  - inversion H; subst. cbn [app accum_float]. rewrite digit_val_spec by auto. rewrite IH by auto. cbn [nonempty negb orb andb]. rewrite orb_true_r, andb_false_r.
    destruct (accum_float true sp se false r). reflexivity.
Qed.
Lemma accum_stop sd sp se r : stops r -> accum_float sd sp se false r = ([], r).
Proof.
  destruct r as [|c r]; auto. intros (H1 & H2 & H3 & _). cbn [accum_float]. rewrite digit_val_none by auto.
  destruct (Ascii.eqb_spec c "."); [congruence|]. destruct (Ascii.eqb_spec (lower_char c) "e"); [congruence|]. reflexivity.
Qed.
Lemma accum_expo expo x r sp : ((expo = [] /\ x = 0) \/ exists c xt, (c = "e"%char \/ c = "E"%char) /\ expo = c :: xt /\ int_text xt x) -> stops r ->
  accum_float true sp false false (expo ++ r) = (expo, r).
Proof.
  intros [(-> & ->)|(c & xt & Hc & -> & (neg & s & ds & -> & Hs & Hn & Hd & ->))] Hr.
  - now apply accum_stop.
  - cbn [app accum_float]. rewrite digit_val_none by (apply char_not_digit; cbn; destruct Hc; auto 6).
    replace (Ascii.eqb c ".") with false by (destruct Hc as [->| ->]; reflexivity). cbn [andb].
    replace (Ascii.eqb (lower_char c) "e") with true by (destruct Hc as [->| ->]; reflexivity). cbn [andb negb]. rewrite <- app_assoc.
    assert (K : forall pe, accum_float true sp true pe (ds ++ r) = (ds, r)).
    { intros pe. rewrite accum_digits by auto. destruct ds; [congruence|]. cbn [orb nonempty negb]. rewrite andb_false_r, accum_stop by auto. now rewrite app_nil_r. }
    destruct neg; cbn in Hs; [subst s|destruct Hs as [->| ->]]; cbn [app].
    + cbn [accum_float]. change (digit_val "-"%char) with (@None N). cbn [Ascii.eqb Bool.eqb andb lower_char negb orb]. cbn. rewrite K. reflexivity.
    + rewrite K. reflexivity.
    + cbn. rewrite K. reflexivity.
Qed.
Lemma conv_double_spec t neg m e r : dec_text t neg m e -> stops r ->
  conv_double (t ++ r) = match lit_value neg (LDec (Z.to_N m) e) with S754_infinity _ => (max_finite neg, false, r) | x => (x, true, r) end.
Proof.
  intros Ht Hr. pose proof (strtod_spec t neg m e [] Ht I) as St. rewrite app_nil_r in St.
  destruct Ht as (s & ip & fp & point & expo & x & -> & Hs & Hi & Hf & Hn & Hp & He & -> & ->). unfold conv_double.
  destruct (dec_head s neg ip fp point expo r Hs Hi Hf Hn Hp) as (c & t' & Et & Hc).
  assert (Ns : c <> "-"%char /\ c <> "+"%char) by (destruct Hc as [Hc| ->]; [now apply digit_no_sign|split; discriminate]).
  assert (A : accum_float false false false false (ip ++ point ++ expo ++ r) = (ip ++ point ++ expo, r)).
  { rewrite accum_digits by auto. cbn [orb andb]. destruct Hp as [->|(-> & ->)].
    - cbn [app accum_float]. rewrite digit_val_none by (apply char_not_digit; cbn; auto). cbn [Ascii.eqb Bool.eqb andb negb].
      rewrite accum_digits by auto. replace (nonempty ip || nonempty fp) with true by (destruct ip, fp; auto; cbn in Hn; congruence).
      rewrite andb_false_l. rewrite (accum_expo expo x r true He Hr). reflexivity.
    - rewrite app_nil_r in Hn. destruct ip as [|c0 ip]; [congruence|]. cbn [nonempty app]. rewrite (accum_expo expo x r false He Hr). reflexivity. }
  match goal with |- (let '(_, _) := ?M in _) = _ => assert (S : M = (s, ip ++ point ++ expo ++ r)) end.
  { rewrite <- !app_assoc. destruct neg; cbn in Hs; [subst s; reflexivity|]. destruct Hs as [->| ->]; [|reflexivity]. cbn [app]. rewrite Et.
    destruct (Ascii.eqb_spec c "-"); [tauto|]. destruct (Ascii.eqb_spec c "+"); [tauto|]. reflexivity. }
  rewrite S, A, St. reflexivity.
Qed.

(** ** The value of a literal. *)
Lemma bpow10_Z e : 0 <= e -> bpow radix10 e = IZR (10 ^ e).
Proof. intros H. rewrite <- IZR_Zpower by auto. reflexivity. Qed.
Lemma bpow10_neg e : e < 0 -> bpow radix10 e = (/ IZR (10 ^ (- e)))%R.
Proof. intros H. rewrite <- bpow10_Z by lia. rewrite <- bpow_opp. f_equal. lia. Qed.
Lemma SF_is_rnd z r s : valid_binary prec64 emax64 z = true ->
  (if Rlt_bool (Rabs (rnd r)) BIG then SF2R radix2 z = rnd r /\ is_finite_SF z = true /\ sign_SF z = s
   else z = binary_overflow prec64 emax64 mode_NE s) -> (s = true -> (r <= 0)%R) -> (s = false -> (0 <= r)%R) ->
  is_rnd z r /\ sign_SF z = s.
Proof.
  intros V H Hn Hp. pose proof BIG_gt0 as Bp. rewrite <- (B2SF_SF2B prec64 emax64 z V). destruct (Rlt_bool_spec (Rabs (rnd r)) BIG) as [L|L].
  - destruct H as (H1 & H2 & H3). split; [|rewrite B2SF_SF2B; auto]. apply (B_is_rnd _ r s). rewrite Rlt_bool_true by auto. split; [now rewrite B2R_SF2B|now rewrite is_finite_SF2B].
  - change (binary_overflow prec64 emax64 mode_NE s) with (S754_infinity s) in H. split; [|rewrite B2SF_SF2B; now rewrite H].
    apply (B_is_rnd _ r s). rewrite Rlt_bool_false by auto. split; [now rewrite B2SF_SF2B|]. destruct s; symmetry.
    + apply Rlt_bool_true. rewrite Rabs_left1 in L by (apply rnd_neg; auto). lra.
    + apply Rlt_bool_false. apply rnd_pos. auto.
Qed.
Lemma dec_real_sign neg m e : 0 <= m -> (neg = true -> (dec_real neg m e <= 0)%R) /\ (neg = false -> (0 <= dec_real neg m e)%R).
Proof.
  intros H. apply IZR_le in H. pose proof (bpow_gt_0 radix10 e). unfold dec_real. split; intros ->; cbn [opp_if]; [rewrite opp_IZR|]; nra.
Qed.
Lemma binary_round_aux_any emax' sx mx ex lx :
  SpecFloat.binary_round_aux prec64 emax' sx mx ex lx = BinarySingleNaN.binary_round_aux prec64 emax' mode_NE sx mx ex lx.
Proof.
  unfold SpecFloat.binary_round_aux, BinarySingleNaN.binary_round_aux. set (mrse' := shr_fexp _ _ _ _ _). case mrse'; intros mrs' e'; simpl.
  now rewrite (round_nearest_even_equiv sx).
Qed.
Lemma binary_round_any emax' s m e : SpecFloat.binary_round prec64 emax' s m e = BinarySingleNaN.binary_round prec64 emax' mode_NE s m e.
Proof.
  unfold SpecFloat.binary_round, BinarySingleNaN.binary_round, shl_align_fexp. set (mez := shl_align _ _ _); case mez as [mz ez]. apply binary_round_aux_any.
Qed.
Lemma lit_gen emax' (Hm' : Prec_lt_emax prec64 emax') neg m e : 0 < m ->
  let z := round_lit emax' neg (LDec (Z.to_N m) e) in
  let v := round radix2 (SpecFloat.fexp prec64 emax') ZnearestE (dec_real neg m e) in
  valid_binary prec64 emax' z = true /\
  if Rlt_bool (Rabs v) (bpow radix2 emax') then SF2R radix2 z = v /\ is_finite_SF z = true /\ sign_SF z = neg
  else z = binary_overflow prec64 emax' mode_NE neg.
Proof.
  intros Hm. destruct m as [|p|p]; try lia. cbn [Z.to_N]. unfold round_lit. destruct (Z.leb_spec 0 e) as [He|He].
  - rewrite binary_round_any.
    destruct (binary_round_correct prec64 emax' _ _ mode_NE neg (p * Z.to_pos (10 ^ e)) 0) as (V & C). cbv zeta in C |- *.
    assert (E : F2R (Float radix2 (cond_Zopp neg (Z.pos (p * Z.to_pos (10 ^ e)))) 0) = dec_real neg (Zpos p) e).
    { unfold F2R, dec_real. cbn [Fnum Fexp bpow]. rewrite Rmult_1_r, bpow10_Z by auto. rewrite <- mult_IZR. f_equal.
      rewrite Pos2Z.inj_mul, Z2Pos.id by now apply Z.pow_pos_nonneg. unfold opp_if, cond_Zopp. destruct neg; lia. }
    rewrite E in C. auto.
  - destruct (Bdiv_correct_aux prec64 emax' _ _ mode_NE neg p 0 false (Z.to_pos (10 ^ (- e))) 0) as (V & C).
    rewrite Z2Pos.id in V, C by (apply Z.pow_pos_nonneg; lia).
    destruct (SFdiv_core_binary prec64 emax' (Z.pos p) 0 (10 ^ (- e)) 0) as [[q e'] lo].
    rewrite xorb_false_r in V, C. rewrite binary_round_aux_any.
    assert (E : (F2R (Float radix2 (cond_Zopp neg (Z.pos p)) 0) / F2R (Float radix2 (cond_Zopp false (10 ^ (- e))) 0))%R = dec_real neg (Zpos p) e).
    { unfold F2R, dec_real. cbn [Fnum Fexp bpow cond_Zopp]. rewrite !Rmult_1_r, bpow10_neg by auto. destruct neg; reflexivity. }
    rewrite E in C. auto.
Qed.
Theorem lit_rnd neg m e : 0 < m -> is_rnd (lit_value neg (LDec (Z.to_N m) e)) (dec_real neg m e) /\ sign_SF (lit_value neg (LDec (Z.to_N m) e)) = neg.
Proof.
  intros Hm. destruct (dec_real_sign neg m e ltac:(lia)) as (S1 & S2). destruct (lit_gen emax64 _ neg m e Hm) as (V & C). apply SF_is_rnd; auto.
Qed.
Lemma lit_zero neg e : lit_value neg (LDec 0 e) = S754_zero neg. Proof. reflexivity. Qed.

(** Numbers of normal size are in the range of [stod]. *)
Lemma not_tiny neg m e : 0 < m -> (bpow radix2 (-1022) <= Rabs (dec_real neg m e))%R -> is_tiny (round_lit 65536 neg (LDec (Z.to_N m) e)) = false.
Proof.
  intros Hm Hb. assert (I65 : Prec_lt_emax prec64 65536) by reflexivity. destruct (lit_gen 65536 I65 neg m e Hm) as (V & C).
  set (z := round_lit 65536 neg (LDec (Z.to_N m) e)) in *.
  set (v := round radix2 (SpecFloat.fexp prec64 65536) ZnearestE (dec_real neg m e)) in *. cbv zeta in C.
  assert (Hv : (bpow radix2 (-1022) <= Rabs v)%R).
  { pose proof (fexp_correct prec64 65536 Hprec64) as Vx. apply abs_round_ge_generic; auto with typeclass_instances.
    apply generic_format_bpow'; auto. unfold SpecFloat.fexp, SpecFloat.emin, prec64. lia. }
  destruct (Rlt_bool_spec (Rabs v) (bpow radix2 65536)).
  - destruct C as (C1 & C2 & C3). destruct z as [s|s| |s p ex]; try discriminate; cbn [is_tiny].
    + cbn in C1. rewrite <- C1, Rabs_R0 in Hv. pose proof (bpow_gt_0 radix2 (-1022)). lra.
    + apply Z.leb_gt. cbn [SF2R] in C1. rewrite <- C1 in Hv.
      assert (Nz : F2R (Float radix2 (cond_Zopp s (Z.pos p)) ex) <> 0%R) by (intros Z0; rewrite Z0, Rabs_R0 in Hv; pose proof (bpow_gt_0 radix2 (-1022)); lra).
      pose proof (mag_ge_bpow radix2 (F2R (Float radix2 (cond_Zopp s (Z.pos p)) ex)) (-1021)) as M. replace (-1021 - 1) with (-1022) in M by lia. specialize (M Hv).
      rewrite mag_F2R_Zdigits in M by (destruct s; cbn; lia). rewrite Zpos_digits2_pos. destruct s; cbn [cond_Zopp] in M; [|lia].
      change (Z.neg p) with (- Z.pos p) in M. rewrite Zdigits_opp in M. lia.
  - rewrite C. destruct neg; reflexivity.
Qed.
Definition in_range (r : R) : Prop := (bpow radix2 (-1022) <= Rabs r)%R /\ (Rabs (rnd r) < BIG)%R.
Lemma lit_finite neg m e : 0 < m -> (Rabs (rnd (dec_real neg m e)) < BIG)%R ->
  fin64 (lit_value neg (LDec (Z.to_N m) e)) /\ val (lit_value neg (LDec (Z.to_N m) e)) = rnd (dec_real neg m e).
Proof.
  intros Hm Hb. destruct (lit_gen emax64 _ neg m e Hm) as (V & C). fold lit_value in V, C. change (bpow radix2 emax64) with BIG in C.
  change (round radix2 _ ZnearestE ?r) with (rnd r) in C. cbv zeta in C. rewrite Rlt_bool_true in C by auto. destruct C as (C1 & C2 & C3). fold lit_value in *.
  split; [split; [exact V|]|]; destruct (lit_value neg (LDec (Z.to_N m) e)); try discriminate; try exact I; rewrite <- C1; reflexivity.
Qed.
Theorem stod_dec t neg m e r : dec_text t neg m e -> stops r -> m = 0 \/ in_range (dec_real neg m e) ->
  stod (t ++ r) = Ok (lit_value neg (LDec (Z.to_N m) e)).
Proof.
  intros Ht Hr H. unfold stod. rewrite (strtod_spec t neg m e r Ht Hr).
  assert (Hm : 0 <= m) by (destruct Ht as (s & ip & fp & point & expo & x & _ & _ & Hi & Hf & _ & _ & _ & -> & _); apply dec_value_nonneg; apply Forall_app; auto).
  replace (lit_erange neg (LDec (Z.to_N m) e)) with false; auto. symmetry.
  destruct (Z.eq_dec m 0) as [->|Hz]; [reflexivity|]. destruct H as [H|(H1 & H2)]; [lia|].
  unfold lit_erange. destruct (lit_finite neg m e ltac:(lia) H2) as (F & _). rewrite not_tiny by (auto; lia). 
  destruct (lit_value neg (LDec (Z.to_N m) e)); rewrite ?andb_false_r; auto. destruct F as (_ & []).
Qed.
