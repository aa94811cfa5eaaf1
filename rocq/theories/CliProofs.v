(** * Proofs about the command line. *)
From Coq Require Import ZArith Bool Lia Ascii String List.
From Verif Require Import Outcome Num Lemire Distance TimeSeries Text Dataset Groups Api DecSpec NumSpec FileSpec DecProofs LoadProofs StreamProofs Cli CliSpec.
Import ListNotations.
Open Scope Z_scope.

(** ** stoi *)
Lemma skip_space_split t : exists s, t = s ++ skip_space t /\ Forall white s.
Proof.
  induction t as [|c t (s & E & H)]; [exists []; auto|]. cbn [skip_space]. destruct (is_space c) eqn:C; [|exists []; auto].
  exists (c :: s). split; [cbn; now f_equal|]. constructor; auto. now apply is_space_iff.
Qed.
Lemma take_sign_split t : exists neg s r, take_sign t = (neg, r) /\ t = s ++ r /\ sign_of neg s.
Proof.
  destruct t as [|c t]; [exists false, [], []; cbn; auto|]. cbn [take_sign].
  destruct (Ascii.eqb_spec c "-"%char) as [->|_]; [exists true, ["-"%char], t; cbn; auto|].
  destruct (Ascii.eqb_spec c "+"%char) as [->|_]; [exists false, ["+"%char], t; cbn; auto|].
  exists false, [], (c :: t). cbn. auto.
Qed.
Lemma digits_split t : exists ds r, t = ds ++ r /\ digits_only ds /\ no_digit r.
Proof.
  induction t as [|c t (ds & r & E & H & Hr)]; [exists [], []; cbn; repeat split; constructor|].
  destruct (digit_val c) as [v|] eqn:D.
  - exists (c :: ds), r. split; [cbn; now f_equal|]. split; auto. constructor; auto. unfold digit_val in D. unfold digit.
    destruct (N.leb_spec 48 (N_of_ascii c)), (N.leb_spec (N_of_ascii c) 57); cbn in D; try discriminate. lia.
  - exists [], (c :: t). repeat split; [constructor|]. cbn. intros Hc. now rewrite digit_val_spec in D by auto.
Qed.
Lemma no_digit_iff r : no_digit r <-> (forall c r', r = c :: r' -> ~ digit c).
Proof. destruct r as [|c r]; cbn; split; auto; [discriminate|intros H c0 r' E; now injection E as <- _|intros H; eauto]. Qed.
Lemma int_word_stoi w z : int_word w z -> stoi w = Ok z.
Proof.
  intros (s & t & r & -> & Hs & Ht & Hr & Hz). assert (E : stoi (t ++ r) = Ok z).
  { apply stoi_spec; auto; [unfold int_min, int_max; lia|now apply no_digit_iff]. }
  unfold stoi in *. assert (K : forall c r', t ++ r = c :: r' -> ~ white c).
  { intros c r' Ec Hc. destruct t as [|c0 t]; [now apply int_text_nonempty in Ht|]. injection Ec as <- _.
    apply is_space_iff in Hc. rewrite (int_head _ _ _ _ Ht eq_refl) in Hc. discriminate. }
  rewrite skip_white by auto. rewrite skip_nospace in E; auto.
  intros c r' Ec. destruct (is_space c) eqn:C; auto. apply is_space_iff in C. now apply K in Ec.
Qed.
Lemma stoi_cases w : (exists z, stoi w = Ok z /\ int_word w z) \/ (exists k, stoi w = Throw (LogicExn k) /\ forall z, ~ int_word w z).
Proof.
  assert (G : (exists z, stoi w = Ok z /\ int_word w z) \/ exists k, stoi w = Throw (LogicExn k)).
  { unfold stoi. destruct (skip_space_split w) as (s & E & Hs). destruct (take_sign_split (skip_space w)) as (neg & sg & r & Et & E2 & Hsg).
    rewrite Et. destruct (digits_split r) as (ds & r' & -> & Hd & Hr). rewrite take_digits_0 by auto.
    destruct (Z.eqb_spec (zlen ds) 0) as [|En]; [right; eauto|]. pose proof (dec_value_nonneg ds Hd). rewrite Z2N.id by lia.
    change (if neg then - dec_value ds else dec_value ds) with (opp_if neg (dec_value ds)).
    destruct (Z.leb_spec int_min (opp_if neg (dec_value ds))); [|right; cbn [andb]; eauto].
    destruct (Z.leb_spec (opp_if neg (dec_value ds)) int_max); [|right; cbn [andb]; eauto]. left. exists (opp_if neg (dec_value ds)). split; auto.
    exists s, (sg ++ ds), r'. rewrite <- app_assoc, <- E2. repeat split; auto.
    - exists neg, sg, ds. repeat split; auto. intros ->. now apply En.
    - now apply no_digit_iff.
    - unfold int_max in *. lia. }
  destruct G as [G|(k & G)]; [now left|right]. exists k. split; auto. intros z H. apply int_word_stoi in H. congruence.
Qed.
Lemma stoi_iff w z : stoi w = Ok z <-> int_word w z.
Proof.
  split; [|apply int_word_stoi]. intros E. destruct (stoi_cases w) as [(z' & E' & H)|(k & E' & _)]; congruence.
Qed.
Lemma text_eqb_iff x : forall y, text_eqb x y = true <-> x = y.
Proof.
  induction x as [|a x IH]; intros [|b y]; cbn; split; try congruence.
  - intros H. apply andb_prop in H as (H1 & H2). apply Ascii.eqb_eq in H1. apply IH in H2. now subst.
  - intros H. injection H as -> ->. apply andb_true_iff. split; [apply Ascii.eqb_refl|now apply IH].
Qed.
Lemma text_eqb_neq x y : x <> y -> text_eqb x y = false.
Proof. intros H. destruct (text_eqb x y) eqn:E; auto. now apply text_eqb_iff in E. Qed.
Lemma starts_iff w : starts_comment w = true <-> comment w.
Proof.
  unfold starts_comment, comment. split.
  - destruct w as [|a [|b w]]; try discriminate. intros H. apply andb_prop in H as (H1 & H2). apply Ascii.eqb_eq in H1, H2. subst. now exists w.
  - intros (r & ->). reflexivity.
Qed.
Lemma words_tokens ws line : words ws line -> tokens [sp] line = ws.
Proof. apply line_of_tokens. Qed.
Lemma tokens_words line : words (tokens [sp] line) line.
Proof. apply tokens_line_of. Qed.

Definition run_command (N : NumOps) (IO : NumIO N) (writable : string -> bool) (clock : Z -> bool) (c : cli N) (a : text) (args : list text) : ran N :=
  match lookup a (commands N IO writable clock) with None => Ran N c false (RUnknown N) | Some f => f c args end.
Lemma zlen_cons {A} (x : A) l : zlen (x :: l) = 1 + zlen l.
Proof. unfold zlen. cbn [List.length]. lia. Qed.
Lemma words_nonempty w ws line : words (w :: ws) line -> Forall (fun w : text => w <> []) ws.
Proof.
  intros H. assert (G : Forall (fun w : text => w <> []) (w :: ws)) by (induction H; constructor; auto). now inversion G.
Qed.
Ltac runs := unfold run_command; cbn [lookup commands text_eqb T_ list_ascii_of_string Ascii.eqb Bool.eqb andb];
  unfold cmdLoad, cmdSave, cmdUnload, cmdList, cmdTimer, cmdGroup, cmdSaveGroup, cmdLoadGroup, cmdNormalize, cmdPAA, cmdMatch.
Ltac small := cbn [badArgs zlen List.length Z.of_nat Pos.of_succ_nat Pos.succ Z.ltb Z.compare Pos.compare Pos.compare_cont orb
  int_arg arg zget Z.to_nat Pos.to_nat Pos.iter_op Nat.add nth_error bind Z.eqb Pos.eqb fst snd api_call List.hd].
Ltac steps := runs; cbv beta iota zeta delta [badArgs zlen List.length Z.of_nat Pos.of_succ_nat Pos.succ Z.ltb Z.compare Pos.compare Pos.compare_cont orb
     int_arg arg zget Z.to_nat Pos.to_nat Pos.iter_op Nat.add nth_error Z.eqb Pos.eqb fst snd List.hd];
     cbn [bind]; repeat match goal with H : stoi _ = _ |- _ => rewrite H; cbn [bind] end.
Ltac throws := right; right; right; left; steps; eexists; reflexivity.
Ltac int a := let z := fresh "z" in let E := fresh "E" in let W := fresh "W" in let k := fresh "k" in
  destruct (stoi_cases a) as [(z & E & W)|(k & E & W)]; [|first [throws | idtac]].
Ltac toolong := match goal with H : zlen _ <= _ |- _ => exfalso; revert H; rewrite ?zlen_cons; unfold zlen; cbn [List.length]; lia end.
Ltac tooshort := match goal with H : _ <= zlen _ |- _ => exfalso; revert H; rewrite ?zlen_cons; unfold zlen; cbn [List.length]; lia end.

Section Cli.
Context (N : NumOps) (IO : NumIO N) (writable : string -> bool).
Local Notation cli := (cli N).
Local Notation main_line := (main_line N IO writable).
Local Notation process := (processLine N IO writable).
Local Notation step := (step N IO writable).

Definition caught (r : ran N) : next N :=
  match r with
  | Ran _ c' true r => Ended N c' r
  | Ran _ c' false r => Prompt N c' r
  | Raised _ c' (OnexExn m) => Prompt N c' (RError N m)
  | Raised _ c' (LogicExn _) => Prompt N c' (RNotNumeric N)
  | Raised _ c' (OtherExn _) => Ended N c' (RUnexpected N)
  | Undef _ u => Crash N u
  | Loops _ => Stuck N
  end.
Lemma main_caught clock c line : main_line clock c line = caught (process clock c line).
Proof. reflexivity. Qed.
Lemma caught_res c r : caught (of_res N c r) = shows N (c_timer N c) r.
Proof. destruct r as [s v|s []| |]; reflexivity. Qed.

Local Notation run_command := (run_command N IO writable).
Lemma process_words clock c line w ws : words (w :: ws) line -> ~ comment w -> w <> T_ "quit" -> w <> T_ "exit" -> w <> T_ "help" ->
  process clock c line = run_command clock c w (w :: ws).
Proof.
  intros H H1 H2 H3 H4. unfold processLine. rewrite (words_tokens _ _ H).
  destruct (starts_comment w) eqn:E; [now apply starts_iff in E|]. now rewrite !text_eqb_neq by auto.
Qed.
Lemma known_plain w : known w -> ~ comment w /\ w <> T_ "quit" /\ w <> T_ "exit" /\ w <> T_ "help".
Proof.
  intros (c & lo & hi & H & ->). cbn in H.
  repeat (destruct H as [H|H]; [injection H as <- _ _; repeat split; try discriminate; intros (r & E); discriminate|]). destruct H.
Qed.
Lemma lookup_unknown clock w : ~ known w -> lookup w (commands N IO writable clock) = None.
Proof.
  intros H. unfold commands. cbn [lookup].
  repeat (rewrite text_eqb_neq; [|intros ->; apply H; unfold known; do 3 eexists; split; [|reflexivity]; cbn; tauto]). reflexivity.
Qed.
Lemma badArgs_iff args lo hi : badArgs args lo hi = false <-> lo <= zlen args <= hi.
Proof. unfold badArgs. destruct (Z.ltb_spec (zlen args) lo), (Z.ltb_spec hi (zlen args)); cbn; split; try discriminate; try lia; auto. Qed.
Lemma limits_run clock c n lo hi ws : In (n, (lo, hi)) limits -> ~ lo <= zlen ws <= hi ->
  run_command clock c (T_ n) (T_ n :: ws) = Ran N c false (RArgs N).
Proof.
  intros H Hw. cbn in H. assert (B : badArgs (T_ n :: ws) (1 + lo) (1 + hi) = true).
  { destruct (badArgs _ _ _) eqn:E; auto. apply badArgs_iff in E. rewrite zlen_cons in E. lia. }
  repeat (destruct H as [H|H]; [injection H as <- <- <-; unfold run_command; cbn [lookup commands text_eqb T_ list_ascii_of_string Ascii.eqb Bool.eqb andb];
    cbv beta delta [cmdLoad cmdSave cmdUnload cmdList cmdTimer cmdGroup cmdSaveGroup cmdLoadGroup cmdNormalize cmdPAA cmdMatch]; cbn [Z.add Pos.add Pos.succ] in B; cbn [T_ list_ascii_of_string] in B; now rewrite B|]). destruct H.
Qed.

(** ** Lines that ask for an operation. *)
Lemma says_known ws o : says N IO ws o -> exists w r, ws = w :: r /\ known w.
Proof.
  intros H. destruct H; eexists; eexists; (split; [reflexivity|]); unfold known; do 3 eexists; (split; [|reflexivity]); cbn; tauto.
Qed.
Lemma says_run clock c w ws o : says N IO (w :: ws) o -> at_clock N clock o ->
  run_command clock c w (w :: ws) = of_res N c (step (c_api N c) o).
Proof.
  intros H C. inversion H; subst; clear H;
    try (match goal with H : (_ <= 3)%nat |- _ => destruct r as [|? [|? [|? [|? r]]]]; [| | | |cbn in H; lia]; clear H end); runs;
    repeat match goal with H : int_word _ _ |- _ => apply stoi_iff in H end.
  all: try (cbv beta iota zeta delta [badArgs zlen List.length Z.of_nat Pos.of_succ_nat Pos.succ Z.ltb Z.compare Pos.compare Pos.compare_cont orb
     int_arg arg zget Z.to_nat Pos.to_nat Pos.iter_op Nat.add nth_error Z.eqb Pos.eqb fst snd List.hd];
     cbn [bind]; repeat match goal with H : stoi _ = _ |- _ => rewrite H; cbn [bind] end; try reflexivity).
  - destruct (Ascii.eqb_spec ch nl) as [->|_]; [unfold nl in *; congruence|reflexivity].
  - match goal with H : io_stod _ _ = _ |- _ => rewrite H end. cbn in C. subst. reflexivity.
  - destruct z; [congruence|reflexivity|reflexivity].
Qed.

(** ** Every line. *)
Definition classified (clock : Z -> bool) (c : cli) (ws : list text) (r : ran N) : Prop :=
  (exists o, says N IO ws o /\ at_clock N clock o /\ r = of_res N c (step (c_api N c) o)) \/
  (exists m, r = Ran N c false m /\ In m [RUnknown N; RArgs N; RRefused N; RDistances N; RTimer N (c_timer N c)]) \/
  (exists b, r = Ran N (mkCli N (c_api N c) b) false (RTimer N b) /\ ws = [T_ "timer"; T_ (if b then "on" else "off")]) \/
  (exists k, r = Raised N c (LogicExn k)) \/
  (match_no_end ws /\ r = Undef N OutOfBounds).
Lemma does clock c w ws o : says N IO (w :: ws) o -> at_clock N clock o -> classified clock c (w :: ws) (run_command clock c w (w :: ws)).
Proof. intros H C. left. exists o. repeat split; auto. now apply says_run. Qed.
Lemma run_cases clock c (w : text) (ws : list text) : stod_ok IO -> Forall (fun w : text => w <> []) ws -> classified clock c (w :: ws) (run_command clock c w (w :: ws)).
Proof.
  intros SO NE. destruct (lookup w (commands N IO writable clock)) as [f|] eqn:L;
    [|right; left; unfold run_command; rewrite L; eexists; split; [reflexivity|cbn; tauto]].
  assert (K : known w).
  { unfold commands in L. cbn [lookup] in L.
    repeat match type of L with (if text_eqb w (T_ ?n) then _ else _) = _ =>
      let E := fresh in destruct (text_eqb w (T_ n)) eqn:E;
      [apply text_eqb_iff in E; subst w; unfold known; do 3 eexists; split; [|reflexivity]; cbn; tauto|] end. discriminate. }
  clear L f. destruct K as (n & lo & hi & H & ->). destruct (Z.ltb_spec (zlen ws) lo) as [Hl|Hl].
  { right. left. eexists. split; [apply (limits_run clock c n lo hi ws H); lia|cbn; tauto]. }
  destruct (Z.ltb_spec hi (zlen ws)) as [Hh|Hh].
  { right. left. eexists. split; [apply (limits_run clock c n lo hi ws H); lia|cbn; tauto]. }
  cbn in H. repeat (destruct H as [H|H]; [injection H as <- <- <-|]).
  12: destruct H.
  - destruct ws as [|p [|a [|b [|t [|? ws]]]]]; try toolong; try tooshort.
    + eapply does; [apply says_load|exact I].
    + int a. eapply does; [apply says_load_rows; eauto|exact I].
    + int a. int b. eapply does; [apply says_load_cols; eauto|exact I].
    + int a. int b. eapply does; [apply says_load_seps; eauto|exact I].
  - destruct ws as [|a [|p [|t [|? ws]]]]; try toolong; try tooshort; int a.
    + eapply does; [apply says_save; eauto|exact I].
    + destruct t as [|ch t].
      * exfalso. rewrite !Forall_cons_iff in NE. tauto.
      * destruct (Ascii.eqb_spec ch "010"%char) as [->|]; [eapply does; [apply says_save_nl; eauto|exact I]|eapply does; [apply says_save_sep; eauto|exact I]].
  - destruct ws as [|a r]; [tooshort|]. destruct (stoi_cases a) as [(z & E & W)|(k & E & _)].
    + eapply does; [apply says_unload; eauto|exact I]. rewrite zlen_cons in Hh. unfold zlen in Hh. lia.
    + destruct r as [|? [|? [|? [|? r]]]]; [throws|throws|throws|throws|toolong].
  - destruct ws as [|t [|? ws]]; try toolong; try tooshort. destruct (text_eqb t (T_ "dataset")) eqn:E1.
    { apply text_eqb_iff in E1 as ->. eapply does; [apply says_list|exact I]. }
    destruct (text_eqb t (T_ "distance")) eqn:E2; right; left.
    + exists (RDistances N). split; [|cbn; tauto]. steps. fold (T_ "dataset"). fold (T_ "distance"). now rewrite E1, E2.
    + exists (RRefused N). split; [|cbn; tauto]. steps. now rewrite E1, E2.
  - destruct ws as [|t [|? ws]]; try toolong; try tooshort.
    { right. left. exists (RTimer N (c_timer N c)). split; [reflexivity|cbn; tauto]. }
    destruct (text_eqb t (T_ "on")) eqn:E1.
    { apply text_eqb_iff in E1 as ->. right. right. left. now exists true. }
    destruct (text_eqb t (T_ "off")) eqn:E2.
    { apply text_eqb_iff in E2 as ->. right. right. left. now exists false. }
    right. left. exists (RRefused N). split; [|cbn; tauto]. steps. now rewrite E1, E2.
  - destruct ws as [|a [|b [|? ws]]]; try toolong; try tooshort; int a. destruct (SO b) as [(v & Ev)|(k & Ev)].
    + eapply does; [apply says_group; eauto|reflexivity].
    + right. right. right. left. exists k. steps. now rewrite Ev.
  - destruct ws as [|a [|p [|b [|? ws]]]]; try toolong; try tooshort; int a.
    + eapply does; [apply says_saveGroup; eauto|exact I].
    + int b. destruct (Z.eqb_spec z0 0) as [->|]; [eapply does; [apply says_saveGroup_full; eauto|exact I]|eapply does; [apply says_saveGroup_only with z0; eauto|exact I]].
  - destruct ws as [|a [|p [|? ws]]]; try toolong; try tooshort; int a. eapply does; [apply says_loadGroup; eauto|exact I].
  - destruct ws as [|a [|? ws]]; try toolong; try tooshort; int a. eapply does; [apply says_normalize; eauto|exact I].
  - destruct ws as [|a [|b [|? ws]]]; try toolong; try tooshort; int a. int b. eapply does; [apply says_paa; eauto|exact I].
  - destruct ws as [|a [|b [|d [|e [|f [|? ws]]]]]]; try toolong; try tooshort; int a; int b; int d.
    + eapply does; [apply says_match; eauto|exact I].
    + int e. right. right. right. right. split; [|steps; reflexivity].
      exists a, b, d, e, z, z0, z1, z2. auto.
    + int e. int f. eapply does; [apply says_match_part; eauto|exact I].
Qed.
End Cli.
