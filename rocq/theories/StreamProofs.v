(** * Proofs about reading numbers and words from a stream. *)
From Coq Require Import ZArith Bool Lia Reals Lra SpecFloat Ascii String List.
From Flocq Require Import Core BinarySingleNaN.
From Verif Require Import Outcome Num Text F64Base DecSpec NumSpec DecProofs PrintProofs.
Import ListNotations.
Open Scope Z_scope.

Lemma is_space_iff c : is_space c = true <-> white c.
Proof.
  unfold is_space, white. set (n := N_of_ascii c). split.
  - intros H. apply orb_prop in H as [H|H]; [|right; now apply N.eqb_eq]. apply andb_prop in H as (H1 & H2). left. apply N.leb_le in H1, H2. auto.
  - intros [(H1 & H2)|H]; apply orb_true_iff; [left|right; now apply N.eqb_eq]. apply andb_true_iff. split; now apply N.leb_le.
Qed.
Lemma skip_white s t : Forall white s -> (forall c r, t = c :: r -> ~ white c) -> skip_space (s ++ t) = t.
Proof.
  intros Hs Ht. induction Hs as [|c s Hc _ IH]; cbn.
  - destruct t as [|c r]; auto. cbn. destruct (is_space c) eqn:E; auto. apply is_space_iff in E. exfalso. now apply (Ht c r eq_refl).
  - apply is_space_iff in Hc. now rewrite Hc.
Qed.
Lemma skip_word t w r : first_word t w r -> skip_space t = w ++ r /\ w <> [].
Proof.
  intros (s & -> & Hs & Hn & Hw & _). split; auto. apply skip_white; auto. intros c r' E. destruct w as [|a w]; [congruence|]. injection E as <- _. now inversion Hw.
Qed.
Definition sep (r : text) : Prop := r = [] \/ exists c r', r = c :: r' /\ white c.
Lemma sep_no_digit r : sep r -> no_digit r.
Proof. intros [->|(c & r' & -> & H)]; cbn; auto. unfold digit. destruct H; lia. Qed.
Lemma sep_stops r : sep r -> stops r.
Proof.
  intros [->|(c & r' & -> & H)]; cbn; auto. split; [unfold digit; destruct H; lia|].
  assert (forall a, In a ["."; "e"; "E"; "x"; "X"]%char -> c <> a).
  { intros a Ha ->. unfold white in H. cbn in Ha. destruct Ha as [<-|[<-|[<-|[<-|[<-|[]]]]]]; cbn in H; lia. }
  split; [apply H0; cbn; auto|]. unfold lower_char. cbv zeta. destruct ((65 <=? N_of_ascii c)%N && (N_of_ascii c <=? 90)%N) eqn:E.
  - apply andb_prop in E as (E1 & E2). apply N.leb_le in E1, E2. destruct H; lia.
  - split; apply H0; cbn; auto 10.
Qed.
Lemma extract_word {A} (conv : text -> A * bool * text) t w r v : first_word t w r -> conv (w ++ r) = (v, true, r) ->
  extract conv (mkIS t false) = (mkIS r false, Some v).
Proof.
  intros H E. apply skip_word in H as (Hs & Hn). unfold extract. cbn [is_fail is_rest]. rewrite Hs. destruct w as [|a w]; [congruence|]. cbn [app] in *. now rewrite E.
Qed.
Lemma extract_int t z r : first_int t z r -> extract conv_int (mkIS t false) = (mkIS r false, Some z).
Proof.
  intros (w & Hw & Hi & Hr). eapply extract_word; eauto. apply conv_int_spec; auto.
  - unfold int_min, int_max. lia.
  - destruct Hw as (s & _ & _ & _ & _ & Hr'). now apply sep_no_digit.
Qed.
Lemma dec_mantissa t neg m e : dec_text t neg m e -> 0 <= m.
Proof. intros (s & ip & fp & point & expo & x & _ & _ & Hi & Hf & _ & _ & _ & -> & _). apply dec_value_nonneg. apply Forall_app. auto. Qed.
Lemma lit_double neg m e : 0 <= m -> (Rabs (rnd (dec_real neg m e)) < BIG)%R -> double_of (lit_value neg (LDec (Z.to_N m) e)) neg (dec_real neg m e).
Proof.
  intros Hm H. destruct (Z.eq_dec m 0) as [->|Hz].
  - change (Z.to_N 0) with 0%N. rewrite lit_zero. split; [split; [reflexivity|exact I]|]. split; [|reflexivity]. cbn [val]. unfold dec_real.
    replace (opp_if neg 0) with 0 by (destruct neg; reflexivity). rewrite Rmult_0_l. now rewrite rnd_0.
  - destruct (lit_finite neg m e ltac:(lia) H) as (F1 & F2). destruct (lit_rnd neg m e ltac:(lia)) as (_ & S). split; auto.
Qed.
Lemma double_of_unique y y' neg r : double_of y neg r -> double_of y' neg r -> y = y'.
Proof.
  intros ((F1 & F2) & V & S) ((F1' & F2') & V' & S'). rewrite <- V' in V. clear V'. destruct neg.
  - assert (E : SFopp y = SFopp y'); [|destruct y, y'; try contradiction; cbn in E, S, S'; subst; congruence].
    apply val_inj.
    + split; [destruct y; auto; contradiction|]. destruct y; cbn in *; auto; now subst.
    + split; [destruct y'; auto; contradiction|]. destruct y'; cbn in *; auto; now subst.
    + destruct y, y'; try contradiction; cbn [sign_SF] in S, S'; subst; cbn [SFopp negb val cond_Zopp] in *; rewrite ?F2R_Zopp in V; auto; lra.
  - apply val_inj; auto; (split; [assumption|]); [destruct y|destruct y']; auto.
Qed.
Lemma extract_lit t w r neg m e : first_word t w r -> dec_text w neg m e -> (Rabs (rnd (dec_real neg m e)) < BIG)%R ->
  extract conv_double (mkIS t false) = (mkIS r false, Some (lit_value neg (LDec (Z.to_N m) e))).
Proof.
  intros Hw Ht Hb. eapply extract_word; eauto. rewrite (conv_double_spec w neg m e r Ht).
  - destruct (lit_double neg m e (dec_mantissa _ _ _ _ Ht) Hb) as (F & _). destruct (lit_value neg _); auto. destruct F as (_ & []).
  - destruct Hw as (s & _ & _ & _ & _ & Hr'). now apply sep_stops.
Qed.
Lemma extract_double t y r : first_double t y r -> extract conv_double (mkIS t false) = (mkIS r false, Some y).
Proof.
  intros (w & neg & m & e & Hw & Ht & H). pose proof H as (F & V & _). pose proof (val_fin_bound y F) as B.
  assert (Hb : (Rabs (rnd (dec_real neg m e)) < BIG)%R) by (rewrite <- V; apply Rabs_lt; lra).
  rewrite (extract_lit t w r neg m e Hw Ht Hb). do 2 f_equal. eapply double_of_unique; eauto. apply lit_double; auto. eapply dec_mantissa; eauto.
Qed.
Lemma take_word_app w r : Forall (fun c => ~ white c) w -> sep r -> take_word (w ++ r) = (w, r).
Proof.
  intros Hw Hr. induction Hw as [|c w Hc _ IH]; cbn.
  - destruct Hr as [->|(c & r' & -> & H)]; cbn; auto. apply is_space_iff in H. now rewrite H.
  - destruct (is_space c) eqn:E; [apply is_space_iff in E; contradiction|]. now rewrite IH.
Qed.
Lemma extract_name t w r : first_word t w r -> extract conv_word (mkIS t false) = (mkIS r false, Some w).
Proof.
  intros H. eapply extract_word; eauto. destruct H as (s & _ & _ & _ & Hw & Hr). unfold conv_word. now rewrite take_word_app.
Qed.
(** The stream is at its end. *)
Lemma extract_end {A} (conv : text -> A * bool * text) t : Forall white t -> extract conv (mkIS t false) = (mkIS [] true, None).
Proof.
  intros H. unfold extract. cbn [is_fail is_rest]. rewrite <- (app_nil_r t), skip_white; auto. intros c r E; discriminate.
Qed.
Lemma extract_failed {A} (conv : text -> A * bool * text) t : extract conv (mkIS t true) = (mkIS t true, None).
Proof. reflexivity. Qed.
(** A word that is not an integer: 0 is stored and the stream fails. *)
Lemma extract_not_int t w r c w' : first_word t w r -> w = c :: w' -> ~ digit c -> ~ In c ["+"; "-"]%char -> exists r', extract conv_int (mkIS t false) = (mkIS r' true, Some 0).
Proof.
  intros H -> Hd Hn. apply skip_word in H as (Hs & _). unfold extract. cbn [is_fail is_rest]. rewrite Hs. cbn [app]. unfold conv_int, take_sign.
  destruct (Ascii.eqb_spec c "-"); [subst; cbn in Hn; tauto|]. destruct (Ascii.eqb_spec c "+"); [subst; cbn in Hn; tauto|].
  assert (E : digit_val c = None).
  { unfold digit_val, digit in *. destruct ((48 <=? N_of_ascii c)%N && (N_of_ascii c <=? 57)%N) eqn:E; auto. apply andb_prop in E as (E1 & E2). apply N.leb_le in E1, E2. tauto. }
  cbn [take_digits]. rewrite E. cbn. eexists. reflexivity.
Qed.

(** An integer that does not fit an int: the nearest limit is stored and the stream fails. *)
Lemma extract_int_out t w r z : first_word t w r -> int_text w z -> ~ (- 2 ^ 31 <= z < 2 ^ 31) ->
  extract conv_int (mkIS t false) = (mkIS r true, Some (if z <? 0 then int_min else int_max)).
Proof.
  intros Hw Hi Hz. pose proof Hw as (s0 & _ & _ & _ & _ & Hr). apply (sep_no_digit r) in Hr. apply skip_word in Hw as (Hs & Hn). unfold extract. cbn [is_fail is_rest]. rewrite Hs.
  assert (E : conv_int (w ++ r) = (if z <? 0 then int_min else int_max, false, r)).
  { destruct Hi as (neg & s & ds & -> & Hsg & Hd0 & Hd & ->). unfold conv_int. rewrite <- app_assoc.
    rewrite (take_sign_spec neg s (ds ++ r)); auto; [|intros c r' E; apply digit_no_sign; eapply digs_head; eauto].
    rewrite take_digits_0 by auto. destruct (Z.eqb_spec (zlen ds) 0) as [E|_]; [destruct ds; [congruence|unfold zlen in E; cbn in E; lia]|].
    pose proof (dec_value_nonneg ds Hd). rewrite Z2N.id by lia. unfold opp_if in *. fold (opp_if neg (dec_value ds)) in *. unfold int_min, int_max in *.
    destruct (Z.ltb_spec (opp_if neg (dec_value ds)) 0), (Z.ltb_spec (opp_if neg (dec_value ds)) (-2147483648)), (Z.ltb_spec 2147483647 (opp_if neg (dec_value ds))); auto; lia. }
  destruct w as [|a w]; [congruence|]. cbn [app] in *. now rewrite E.
Qed.
