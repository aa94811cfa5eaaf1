(** * Proofs about the lines of the console. *)
From Coq Require Import ZArith Bool Lia Ascii String List.
From Verif Require Import Outcome Num Lemire Distance TimeSeries Text Dataset Groups Api DecSpec NumSpec FileSpec DecProofs LoadProofs StreamProofs PrintProofs GroupSpec GroupFileProofs SessionProofs ApiProofs LifeProofs Cli CliSpec CliProofs Console ConsoleSpec ConsoleProofs.
Import ListNotations.
Open Scope Z_scope.

(** ** Lines of a text *)
Fixpoint clear (b : bool) (t : text) : Prop := match t with [] => True | c :: t' => (b = true -> c <> "E"%char) /\ clear (Ascii.eqb c nl) t' end.
Fixpoint ends (b : bool) (t : text) : bool := match t with [] => b | c :: t' => ends (Ascii.eqb c nl) t' end.
Lemma clear_app s : forall b t, clear b (s ++ t) <-> clear b s /\ clear (ends b s) t.
Proof. induction s as [|c s IH]; intros b t; cbn [app clear ends]; [tauto|]. rewrite IH. tauto. Qed.
Lemma ends_app s : forall b t, ends b (s ++ t) = ends (ends b s) t.
Proof. induction s as [|c s IH]; intros b t; cbn [app ends]; auto. Qed.
Lemma clear_weak b t : clear true t -> clear b t.
Proof. destruct t; cbn; [auto|]. intros (H & Ht). auto. Qed.
Lemma ends_last t : ends true t = true -> t = [] \/ exists t', t = t' ++ [nl].
Proof.
  destruct (list_eq_dec ascii_dec t []) as [->|Ne]; [auto|]. destruct (exists_last Ne) as (t' & c & ->). rewrite ends_app. cbn [ends].
  intros H. apply Ascii.eqb_eq in H as ->. right. eauto.
Qed.
Lemma ends_nl t b : ends b (t ++ [nl]) = true.
Proof. rewrite ends_app. reflexivity. Qed.
Lemma one_line_app s t : one_line (s ++ t) <-> one_line s /\ one_line t.
Proof. unfold one_line. rewrite in_app_iff. tauto. Qed.
Lemma one_line_ends t : one_line t -> forall b, t <> [] \/ b = false -> ends b t = false.
Proof.
  induction t as [|c t IH]; intros H b Hb; cbn [ends]; [destruct Hb; [congruence|auto]|]. destruct (Ascii.eqb_spec c nl) as [->|]; [elim H; cbn; auto|].
  apply IH; [|auto]. intros Hi. apply H. cbn. auto.
Qed.
Lemma one_line_clear t : one_line t -> clear false t.
Proof.
  induction t as [|c t IH]; intros H; cbn [clear]; [auto|]. split; [discriminate|]. destruct (Ascii.eqb_spec c nl) as [->|]; [elim H; cbn; auto|].
  apply IH. intros Hi. apply H. cbn. auto.
Qed.
Lemma clear_no_error t : clear true t -> ~ error_line t.
Proof.
  intros C (pre & post & -> & Hp). apply clear_app in C as (_ & C). assert (E : ends true pre = true).
  { destruct Hp as [->|(p' & ->)]; [reflexivity|apply ends_nl]. }
  rewrite E in C. cbn in C. destruct C as (C & _). now apply C.
Qed.
(** A text of complete lines, none of which begins with an E. *)
Definition good (t : text) : Prop := clear true t /\ ends true t = true.
Lemma good_nil : good [].
Proof. split; [exact I|reflexivity]. Qed.
Lemma good_app s t : good s -> good t -> good (s ++ t).
Proof. intros (H1 & H2) (H3 & H4). split; [apply clear_app; rewrite H2; auto|rewrite ends_app, H2; auto]. Qed.
Lemma good_endl : good [nl].
Proof. split; [cbn; split; [discriminate|auto]|reflexivity]. Qed.
Lemma good_line c t : c <> "E"%char -> one_line (c :: t) -> good ((c :: t) ++ [nl]).
Proof.
  intros Hc H. split; [|apply ends_nl]. apply clear_app. rewrite (one_line_ends _ H) by (left; discriminate).
  split; [|cbn; split; [discriminate|auto]]. cbn [clear]. split; [auto|].
  destruct (Ascii.eqb_spec c nl) as [->|]; [elim H; cbn; auto|]. apply one_line_clear. intros Hi. apply H. cbn. auto.
Qed.
Lemma good_flat {A} (f : A -> text) l : (forall x, In x l -> good (f x)) -> good (flat_map f l).
Proof. induction l as [|a l IH]; intros H; cbn [flat_map]; [apply good_nil|]. apply good_app; [apply H; cbn; auto|apply IH; intros; apply H; cbn; auto]. Qed.
Fixpoint clearb (b : bool) (t : text) : bool := match t with [] => true | c :: t' => negb (b && Ascii.eqb c "E"%char) && clearb (Ascii.eqb c nl) t' end.
Lemma clearb_iff t : forall b, clearb b t = true -> clear b t.
Proof.
  induction t as [|c t IH]; intros b H; cbn [clear]; [auto|]. cbn [clearb] in H. apply andb_prop in H as (H1 & H2). split; auto.
  intros -> ->. cbn in H1. discriminate.
Qed.
Lemma good_dec t : clearb true t && ends true t = true -> good t.
Proof. intros H. apply andb_prop in H as (H1 & H2). split; auto. now apply clearb_iff. Qed.
Lemma error_good pre post : good pre -> error_line (pre ++ T_ "Error! " ++ post).
Proof. intros (_ & E). exists pre, post. split; auto. now apply ends_last. Qed.

Lemma print_Z_one_line z : one_line (print_Z z).
Proof.
  destruct (GroupFileProofs.int_word z) as (_ & F). intros Hi. rewrite Forall_forall in F. apply (F _ Hi). unfold white, nl. cbn. lia.
Qed.
Lemma print_Z_chars z : print_Z z <> [] /\ Forall (fun c => digit c \/ c = "-"%char \/ c = "+"%char) (print_Z z).
Proof.
  destruct (print_Z_spec z) as (neg & s & ds & -> & Hs & Hn & Hd & _). split; [intros E; apply app_eq_nil in E; tauto|]. apply Forall_app. split.
  - destruct neg; cbn in Hs.
    + subst s. auto.
    + destruct Hs as [->| ->]; auto.
  - apply Forall_forall. intros c Hc. left. unfold digits_only in Hd. rewrite Forall_forall in Hd. auto.
Qed.
Lemma print_line_clear z t : one_line t -> clear true (print_Z z ++ t).
Proof.
  intros O. destruct (print_Z_chars z) as (Hz & Fz). pose proof (print_Z_one_line z) as Oz. destruct (print_Z z) as [|c r]; [congruence|].
  cbn [app clear]. split.
  - intros _ ->. inversion Fz as [|? ? H _]; subst. destruct H as [H|[H|H]]; try discriminate. unfold digit in H. cbn in H. lia.
  - destruct (Ascii.eqb_spec c nl) as [->|]; [elim Oz; cbn; auto|]. apply one_line_clear. apply one_line_app. split; auto. intros Hi. apply Oz. cbn. auto.
Qed.
Lemma literal_one_line (s : string) : existsb (fun c => Ascii.eqb c nl) (T_ s) = false -> one_line (T_ s).
Proof. intros H Hi. assert (existsb (fun c => Ascii.eqb c nl) (T_ s) = true); [|congruence]. apply existsb_exists. exists nl. split; auto. Qed.
Lemma spaces_one_line n : one_line (repeat sp n).
Proof. intros Hi. apply repeat_spec in Hi. discriminate. Qed.
Lemma pad_one_line w t : one_line t -> one_line (pad w t).
Proof. intros H. unfold pad. apply one_line_app. split; auto. intros Hi. apply repeat_spec in Hi. discriminate. Qed.

Section Lines.
Context (N : NumOps) (IO : NumIO N) (writable : string -> bool).
Local Notation con := (con N).
Local Notation kc := (k_cli N).
Local Notation st := (st N).
Local Notation step := (step N IO writable).

Ltac ol := repeat (apply one_line_app; split); try apply pad_one_line; auto using print_Z_one_line, spaces_one_line; try (apply literal_one_line; reflexivity).
Lemma good_text t : match t with [] => False | c :: _ => c <> "E"%char end -> one_line t -> good (t ++ [nl]).
Proof. destruct t as [|c t]; [intros []|]. apply good_line. Qed.
Ltac gl := unfold endl; rewrite ?app_assoc; apply good_text; [rewrite <- ?app_assoc; cbn; discriminate|rewrite <- ?app_assoc; ol].

(** ** What the library writes *)
Lemma progress_line_good total c : good (progress_line total c).
Proof. unfold progress_line. destruct (_ =? 0); [|apply good_nil]. gl. Qed.
Lemma progress_good clock logged d : good (progress N clock logged d).
Proof.
  apply good_flat. intros l _. cbv zeta. destruct (_ || _); [|apply good_nil]. unfold progress_length.
  match goal with |- good (T_ ?s ++ print_Z ?a ++ endl ++ ?r) => replace (T_ s ++ print_Z a ++ endl ++ r) with ((T_ s ++ print_Z a ++ endl) ++ r) by (rewrite <- !app_assoc; reflexivity) end.
  apply good_app; [gl|]. apply good_flat. intros x _. apply progress_line_good.
Qed.
Lemma library_good s o : good (library N IO s o).
Proof.
  unfold library. destruct o; try apply good_nil.
  - destruct (checkDatasetIndex N s i); try apply good_nil. destruct (isLoaded _); [apply progress_good|apply good_nil].
  - destruct (checkDatasetIndex N s i); try apply good_nil. destruct (st_files N s path); try apply good_nil. destruct (load_header _ _ _ _); try apply good_nil. gl.
Qed.

(** ** Names *)
Lemma words_in ws line w : words ws line -> In w ws -> w <> [] /\ ~ In sp w /\ incl w line.
Proof.
  intros H. induction H as [s Hs|s tok rest toks Hs Ne Hn Hr H IH]; [intros []|]. intros [->|Hi].
  - split; auto. split; [|intros c Hc; apply in_or_app; right; apply in_or_app; auto]. intros Hi. rewrite Forall_forall in Hn. apply (Hn _ Hi). cbn. auto.
  - destruct (IH Hi) as (H1 & H2 & H3). split; auto. split; auto. intros c Hc. apply in_or_app. right. apply in_or_app. right. auto.
Qed.
Lemma T_str w : T_ (str w) = w.
Proof. unfold T_, str. now rewrite list_ascii_of_string_of_list_ascii. Qed.
Lemma named_check s p : named N s p <-> exists i d, checkDatasetIndex N s i = Ok d /\ set_path (ds_set N d) = p.
Proof. unfold named. split; intros (i & d & H & E); exists i, d; (split; [|auto]); [now apply check_iff in H|now apply check_iff]. Qed.
Lemma step_named s o s' p : after N (step s o) = Some s' -> named N s' p -> named N s p \/ exists m c seps, o = OpLoad N p m c seps.
Proof.
  intros A H. rewrite named_check in *. destruct H as (i & d & C & <-). pose proof (step_effect N IO writable _ _ _ A) as E.
  assert (Pt : forall j d0 d', put N s s' j d' -> checkDatasetIndex N s j = Ok d0 -> set_path (ds_set N d') = set_path (ds_set N d0) ->
    (exists i' d1, checkDatasetIndex N s i' = Ok d1 /\ set_path (ds_set N d1) = set_path (ds_set N d))).
  { intros j d0 d' (P1 & P2) C0 Ep. destruct (Z.eq_dec i j) as [->|Hj]; [|rewrite P2 in C by auto; eauto].
    rewrite C in P1. injection P1 as <-. exists j, d0. auto. }
  inversion E as [o' S|o' j d0 d' C0 Ed Eh P|p m c seps n d0 L|j d0 C0 Cn Co _|S _|j d0 d' b old new C0 B Ho B' El Ec Eh P|j n d0 d' new Hn C0 B Eh P]; subst.
  - destruct S as (S & _). left. exists i, d. split; auto. unfold checkDatasetIndex in *. now rewrite S in C.
  - left. eapply Pt; eauto. now rewrite Ed.
  - destruct (step s (OpLoad N p m c seps)) as [s1 v|s1 x| |] eqn:Es; cbn in A; try discriminate; injection A as ->.
    + apply load_inv in Es as (d1 & _ & _ & _ & _ & (_ & C1 & Co & _) & _ & Ep & _). destruct (Z.eq_dec i (Z.of_nat (first_free N (st_sets N s)))) as [->|Hj].
      * rewrite C in C1. injection C1 as <-. right. rewrite Ep. eauto.
      * rewrite Co in C by auto. left. eauto.
    + apply step_exn in Es as [->|[(? & ? & X)|((? & ? & ? & X) & _)]]; [eauto|discriminate X|discriminate X].
  - left. destruct (Z.eq_dec i j) as [->|Hj]; [now apply Cn in C|]. rewrite Co in C by auto. eauto.
  - exfalso. unfold checkDatasetIndex in C. rewrite S in C. destruct (_ || _) in C; [discriminate|]. now destruct (Z.to_nat i) in C.
  - left. destruct (step s (OpNormalize N j)) as [s1 v|s1 x| |] eqn:Es; cbn in A; try discriminate; injection A as ->.
    + cbn [Api.step] in Es. unfold api_normalize in Es. apply lift_done in Es as (d1 & C1 & Es). apply lift_done in Es as (((h & s0) & (mn & mx)) & En & Es).
      injection Es as <- _. apply normalize_inv in En as (b1 & old1 & new1 & B1 & Ho1 & -> & ->). eapply (Pt j d1); [apply put_put with (1 := C1)|exact C1|reflexivity].
    + apply step_exn in Es as [->|[(? & ? & X)|((? & ? & ? & X) & _)]]; [eauto|discriminate X|discriminate X].
  - left. destruct (step s (OpPAA N j n)) as [s1 v|s1 x| |] eqn:Es; cbn in A; try discriminate; injection A as ->.
    + cbn [Api.step] in Es. unfold api_PAA in Es. apply lift_done in Es as (d1 & C1 & Es). apply lift_done in Es as ((h & s0) & En & Es).
      injection Es as <- _. apply PAA_inv in En as (new1 & -> & -> & Hn1). eapply (Pt j d1); [apply put_put with (1 := C1)|exact C1|reflexivity].
    + apply step_exn in Es as [->|[(? & ? & X)|((? & ? & ? & X) & _)]]; [eauto|discriminate X|discriminate X].
Qed.

(** ** What one line does *)
Definition finish (x : said N) : text * Z * next N :=
  let '(t, p, r) := x in
  match r with
  | Ran _ c true r => (t ++ endl, p, Ended N c r)
  | Ran _ c false r => (t ++ endl, p, Prompt N c r)
  | Raised _ c (OnexExn m) => (t ++ T_ "Error! " ++ T_ m ++ endl ++ endl, p, Prompt N c (RError N m))
  | Raised _ c (LogicExn _) => (t ++ T_ "Error! Cannot convert some value to numeric" ++ endl ++ endl, p, Prompt N c (RNotNumeric N))
  | Raised _ c (OtherExn _) => (t ++ T_ "Error! Unknown error" ++ endl ++ endl, p, Ended N c (RUnexpected N))
  | Undef _ u => (t, p, Crash N u)
  | Loops _ => (t, p, Stuck N)
  end.
Lemma k_process_words e k line w ws : words (w :: ws) line -> ~ comment w -> w <> T_ "quit" -> w <> T_ "exit" -> w <> T_ "help" ->
  k_processLine N IO writable e k line = said_command N IO writable e k w (w :: ws).
Proof.
  intros H H1 H2 H3 H4. unfold k_processLine. rewrite (words_tokens _ _ H).
  destruct (starts_comment w) eqn:E; [now apply starts_iff in E|]. now rewrite !text_eqb_neq by auto.
Qed.
Inductive line_case (e : env) (k : con) (line : text) : text * Z * next N -> Prop :=
| lc_quiet ws : words ws line -> (ws = [] \/ exists w r, ws = w :: r /\ comment w) -> line_case e k line ([nl], k_prec N k, Prompt N (kc k) (RNothing N))
| lc_quit w ws : words (w :: ws) line -> line_case e k line ([nl], k_prec N k, Ended N (kc k) (RNothing N))
| lc_help : words [T_ "help"] line -> line_case e k line (showAllHelps ++ [nl], k_prec N k, Prompt N (kc k) (RHelp N))
| lc_help_about w : words [T_ "help"; w] line -> line_case e k line (showHelp w ++ [nl], k_prec N k, Prompt N (kc k) (RHelp N))
| lc_error ws t m : words ws line -> In m [RUnknown N; RArgs N; RRefused N] -> line_case e k line (T_ "Error! " ++ t, k_prec N k, Prompt N (kc k) m)
| lc_distances ws : words ws line -> line_case e k line (T_ " " ++ pad 10 (T_ "euclidean") ++ endl ++ T_ " " ++ pad 10 (T_ "euclidean_dtw") ++ endl ++ endl, k_prec N k, Prompt N (kc k) (RDistances N))
| lc_timer ws b c : words ws line -> c_api N c = c_api N (kc k) -> line_case e k line (show_timer b ++ endl, k_prec N k, Prompt N c (RTimer N b))
| lc_numeric ws : words ws line -> line_case e k line (T_ "Error! " ++ T_ "Cannot convert some value to numeric" ++ endl ++ endl, k_prec N k, Prompt N (kc k) (RNotNumeric N))
| lc_undef ws : words ws line -> line_case e k line ([], k_prec N k, Crash N OutOfBounds)
| lc_op ws o : words ws line -> says N IO ws o -> at_clock N (e_clock e) o -> line_case e k line (finish (op_said N IO writable e k o)).
Lemma line_cases e k line : stod_ok IO -> line_case e k line (k_line N IO writable e k line).
Proof.
  intros SO. change (k_line N IO writable e k line) with (finish (k_processLine N IO writable e k line)).
  pose proof (tokens_words line) as W. set (ws := tokens [sp] line) in *. clearbody ws. destruct ws as [|w ws].
  { unfold k_processLine. rewrite (words_tokens _ _ W). eapply lc_quiet; eauto. }
  destruct (starts_comment w) eqn:E1.
  { unfold k_processLine. rewrite (words_tokens _ _ W), E1. apply starts_iff in E1. eapply lc_quiet; [exact W|]. right. eauto. }
  destruct (text_eqb w (T_ "quit") || text_eqb w (T_ "exit")) eqn:E2.
  { unfold k_processLine. rewrite (words_tokens _ _ W), E1, E2. eapply lc_quit; eauto. }
  destruct (text_eqb w (T_ "help")) eqn:E3.
  { unfold k_processLine. rewrite (words_tokens _ _ W), E1, E2, E3. apply text_eqb_iff in E3 as ->. destruct ws as [|a [|b ws]].
    - cbn [zlen List.length Z.of_nat Pos.of_succ_nat Z.eqb Pos.eqb]. now apply lc_help.
    - cbn. now apply lc_help_about.
    - rewrite (proj2 (Z.eqb_neq _ 1)), (proj2 (Z.eqb_neq _ 2)) by (rewrite !zlen_cons; unfold zlen; lia). cbn [just finish]. rewrite <- app_assoc.
      change (T_ "Error! Too many arguments for 'help'") with (T_ "Error! " ++ T_ "Too many arguments for 'help'"). rewrite <- app_assoc. eapply lc_error; [exact W|cbn; tauto]. }
  apply orb_false_elim in E2 as (E2 & E2').
  assert (Q : forall n, text_eqb w (T_ n) = false -> w <> T_ n) by (intros n E ->; assert (text_eqb (T_ n) (T_ n) = true) by (now apply text_eqb_iff); congruence).
  rewrite (k_process_words e k line w ws W) by (auto; rewrite <- starts_iff, E1; discriminate).
  assert (NE : Forall (fun w : text => w <> []) ws) by (apply Forall_forall; intros x Hx; apply (words_in _ _ x W); cbn; auto).
  destruct (said_cases N IO writable e k w ws SO NE) as [(o & S & C & ->)|[(t & m & -> & Hm)|[->|[(b & c & -> & Hc)|[(y & ->)|(M & ->)]]]]].
  - eapply lc_op; eauto.
  - cbn [finish]. rewrite <- app_assoc. eapply lc_error; eauto.
  - cbn [finish]. rewrite <- !app_assoc. eapply lc_distances; eauto.
  - eapply lc_timer; eauto.
  - cbn [finish app]. eapply lc_numeric; eauto.
  - eapply lc_undef; eauto.
Qed.
Lemma says_line e k line ws o : words ws line -> says N IO ws o -> at_clock N (e_clock e) o -> k_line N IO writable e k line = finish (op_said N IO writable e k o).
Proof.
  intros W S C. pose proof (says_known N IO _ _ S) as K. destruct ws as [|w ws]; [inversion S|].
  change (k_line N IO writable e k line) with (finish (k_processLine N IO writable e k line)). f_equal.
  destruct K as (w' & ws' & E & K). injection E as <- <-. apply known_plain in K as (K1 & K2 & K3 & K4). rewrite (k_process_words e k line w ws W) by auto. now apply says_said.
Qed.

(** ** The precision *)
Lemma timed_unique ws o o' clock : says N IO ws o -> says N IO ws o' -> at_clock N clock o -> at_clock N clock o' -> timed_op N o -> o' = o.
Proof.
  assert (U : forall w a b, int_word w a -> int_word w b -> a = b) by (intros w a b H1 H2; apply stoi_iff in H1; apply stoi_iff in H2; congruence).
  intros S S' C C' T. inversion S; subst; try destruct T; inversion S'; subst; cbn in C, C'; subst; try discriminate;
    repeat match goal with H1 : int_word ?w ?a, H2 : int_word ?w ?b |- _ => tryif constr_eq a b then fail else (pose proof (U _ _ _ H1 H2); subst) end; auto.
  replace thr0 with thr by congruence. reflexivity.
Qed.
Lemma line_digits e k line w p n : stod_ok IO -> k_line N IO writable e k line = (w, p, n) ->
  (timed_success N IO writable e k line /\ p = 4) \/ (~ timed_success N IO writable e k line /\ p = k_prec N k).
Proof.
  intros SO E.
  assert (Ts : timed_success N IO writable e k line -> exists ws o s v, words ws line /\ says N IO ws o /\ at_clock N (e_clock e) o /\ timed_op N o /\ c_timer N (kc k) = true /\
    step (c_api N (kc k)) o = Done N s v /\ n = Prompt N (mkCli N s (c_timer N (kc k))) (RAnswer N v)).
  { intros (T & ws & o & s & v & W & S & C & To & Es). exists ws, o, s, v. repeat split; auto. rewrite (says_line _ _ _ _ _ W S C) in E. unfold op_said in E. rewrite Es in E.
    cbn [finish] in E. now injection E as _ _ <-. }
  pose proof (line_cases e k line SO) as L. rewrite E in L.
  inversion L as [ws W H|w' ws W|W|w' W|ws t m W Hm|ws W|ws b c W Hc|ws W|ws W|ws o W S C Eo]; subst;
    try (right; split; [|reflexivity]; intros X; apply Ts in X as (? & ? & ? & ? & _ & _ & _ & _ & _ & _ & X); discriminate X).
  - right; split; [|reflexivity]; intros X; apply Ts in X as (? & ? & ? & ? & _ & _ & _ & _ & _ & _ & X). injection X as _ ->. cbn in Hm. repeat (destruct Hm as [Hm|Hm]; [discriminate|]). destruct Hm.
  - clear L. unfold op_said in Eo. destruct (step (c_api N (kc k)) o) as [s v|s x|u|] eqn:Es; cbn [finish] in Eo.
    + destruct (timedb N o && c_timer N (kc k)) eqn:B.
      * left. injection Eo as _ <- _. split; [|reflexivity]. apply andb_prop in B as (B1 & B2). split; auto. exists ws, o, s, v. repeat split; auto. destruct o; cbn in B1; try discriminate; exact I.
      * right. injection Eo as _ <- _. split; [|reflexivity]. intros X. apply Ts in X as (ws' & o' & s' & v' & W' & S' & C' & To & Ti & Es' & _).
        replace ws' with ws in * by (rewrite <- (words_tokens _ _ W); now apply words_tokens). rewrite (timed_unique _ _ _ _ S' S C' C To) in B. rewrite Ti, andb_true_r in B.
        destruct o'; cbn in B; try discriminate; destruct To.
    + right. split; [|destruct x; now injection Eo as _ <- _]. intros X. apply Ts in X as (ws' & o' & s' & v' & W' & S' & C' & To & Ti & Es' & En).
      destruct x; injection Eo as _ _ <-; discriminate En.
    + right. injection Eo as _ <- <-. split; [|reflexivity]. intros X; apply Ts in X as (? & ? & ? & ? & _ & _ & _ & _ & _ & _ & X). discriminate X.
    + right. injection Eo as _ <- <-. split; [|reflexivity]. intros X; apply Ts in X as (? & ? & ? & ? & _ & _ & _ & _ & _ & _ & X). discriminate X.
Qed.
Lemma typed_digits files ins k out P : stod_ok IO -> typed N IO writable files ins k out P -> (P /\ k_prec N k = 4) \/ (~ P /\ k_prec N k = 6).
Proof.
  intros SO T. induction T as [|ins k out P e line w p c r T IH E|ins k out P e answers e' T IH F]; auto.
  cbn [k_prec]. destruct (line_digits _ _ _ _ _ _ SO E) as [(Ht & ->)|(Ht & ->)]; [left; auto|]. destruct IH as [(IH & Ep)|(IH & Ep)]; [left|right]; tauto.
Qed.

(** ** The names of the datasets are words of the lines that were typed. *)
Definition clean (p : string) : Prop := one_line (T_ p) /\ ~ In sp (T_ p) /\ T_ p <> [].
Lemma word_clean ws line w : words ws line -> one_line line -> In w ws -> clean (str w).
Proof.
  intros W O Hi. destruct (words_in _ _ _ W Hi) as (H1 & H2 & H3). unfold clean. rewrite !T_str. split; [|auto]. intros Hn. apply O. now apply H3.
Qed.
Lemma says_load_word ws p m c seps : says N IO ws (OpLoad N p m c seps) -> exists w, In w ws /\ p = str w.
Proof. intros S. inversion S; subst; eexists; (split; [|reflexivity]); cbn; auto. Qed.
Lemma op_state e k o w p c r : finish (op_said N IO writable e k o) = (w, p, Prompt N c r) -> after N (step (c_api N (kc k)) o) = Some (c_api N c).
Proof.
  unfold op_said. destruct (step (c_api N (kc k)) o) as [s v|s x|u|]; cbn [finish]; try discriminate.
  - intros E. now injection E as _ _ <- _.
  - destruct x; intros E; try discriminate; now injection E as _ _ <- _.
Qed.
Lemma line_names e k line w p c r : stod_ok IO -> one_line line -> (forall q, named N (c_api N (kc k)) q -> clean q) ->
  k_line N IO writable e k line = (w, p, Prompt N c r) -> forall q, named N (c_api N c) q -> clean q.
Proof.
  intros SO O H E q Hq. pose proof (line_cases e k line SO) as L. rewrite E in L.
  inversion L as [ws W X|w' ws W|W|w' W|ws t m W Hm|ws W|ws b c' W Hc|ws W|ws W|ws o W S C Eo]; subst; auto.
  - rewrite Hc in Hq. auto.
  - apply op_state in Eo. destruct (step_named _ _ _ _ Eo Hq) as [Hn|(m & c0 & seps & ->)]; [auto|].
    destruct (says_load_word _ _ _ _ _ S) as (x & Hx & ->). eapply word_clean; eauto.
Qed.
Lemma typed_names files ins k out P : stod_ok IO -> typed N IO writable files ins k out P -> one_line_inputs ins -> forall q, named N (c_api N (kc k)) q -> clean q.
Proof.
  intros SO T. induction T as [|ins k out P e line w p c r T IH E|ins k out P e answers e' T IH F]; intros O.
  - intros q Hq. apply named_check in Hq as (i & d & C & _). unfold checkDatasetIndex in C. cbn in C. destruct (_ || _); [discriminate|]. now destruct (Z.to_nat i).
  - apply (line_names e k line w p c r SO).
    + apply (O e). apply in_or_app. cbn. auto.
    + apply IH. intros e0 t Hi. apply (O e0). apply in_or_app. auto.
    + exact E.
  - apply IH. intros e0 t Hi. apply (O e0). apply in_or_app. auto.
Qed.
Lemma step_value_named s o s' v : step s o = Done N s' v ->
  match v with VInfo _ i => named N s' (i_name i) | VInfos _ l => forall i, In i l -> named N s' (i_name i) | _ => True end.
Proof.
  assert (H : forall s i x, getDatasetInfo N s i = Ok x -> named N s (i_name x)).
  { intros s0 i x E. unfold getDatasetInfo in E. apply bind_Ok_inv in E as (d & C & E). injection E as <-. apply named_check. exists i, d. auto. }
  assert (A : forall l i0 x, In x (all_infos N i0 l) -> exists n d, nth_error l n = Some (Some d) /\ i_name x = set_path (ds_set N d)).
  { induction l as [|[d|] l IH]; intros i0 x Hx; cbn [all_infos] in Hx; [destruct Hx| |].
    - destruct Hx as [<-|Hx]; [exists 0%nat, d; auto|]. destruct (IH _ _ Hx) as (n & d' & E1 & E2). exists (S n), d'. auto.
    - destruct (IH _ _ Hx) as (n & d' & E1 & E2). exists (S n), d'. auto. }
  intros E. destruct o; cbn [Api.step] in E.
  - apply load_inv in E as (d & _ & _ & _ & _ & (_ & C & _) & _ & Ep & -> & _). apply named_check. eexists _, d. split; [exact C|reflexivity].
  - unfold api_save in E. apply lift_done in E as (d & _ & E). destruct (negb _); [discriminate|]. apply lift_done in E as (t & _ & E). injection E as _ <-. exact I.
  - unfold api_unload in E. apply lift_done in E as (d & _ & E). injection E as _ <-. exact I.
  - injection E as _ <-. exact I.
  - injection E as _ <-. exact I.
  - unfold api_info in E. apply lift_done in E as (x & Ex & E). injection E as <- <-. eapply H; eauto.
  - injection E as <- <-. intros x Hx. destruct (A _ _ _ Hx) as (n & d & En & Ed). exists (Z.of_nat n), d. split; [|auto]. split; [lia|]. now rewrite Nat2Z.id.
  - unfold api_normalize in E. apply lift_done in E as (d & C & E). apply lift_done in E as (((h & s0) & (mn & mx)) & En & E). injection E as _ <-. exact I.
  - unfold api_group in E. apply lift_done in E as (d & C & E). destruct (negb _); [discriminate|]. cbn zeta in E.
    destruct (global_group N _ _ _ _ _ _) as [(gs & n)|x| |]; try discriminate. injection E as _ <-. exact I.
  - unfold api_saveGroup in E. apply lift_done in E as (d & _ & E). destruct (ds_groups N d); [|discriminate].
    destruct (negb _); [discriminate|]. apply lift_done in E as (thr & _ & E). apply lift_done in E as (t & _ & E). injection E as _ <-. exact I.
  - unfold api_loadGroup in E. apply lift_done in E as (d & C & E). destruct (st_files N s path); [|discriminate].
    apply lift_done in E as ((fin & thr) & _ & E). apply lift_done in E as ((gs & r) & _ & E). destruct r; [|discriminate]. injection E as _ <-. exact I.
  - injection E as _ <-. exact I.
  - apply match_inv in E as (d & gs & gs' & c & dq & q & _ & _ & _ & _ & _ & _ & ->). exact I.
  - unfold api_PAA in E. apply lift_done in E as (d & C & E). apply lift_done in E as ((h & s0) & En & E). injection E as <- <-.
    apply PAA_inv in En as (new & -> & -> & Hn). pose proof (put_put N s (hfree N (st_heap N s) (set_buf (ds_set N d)) ++ [Some new]) i d) as P.
    match goal with |- named _ (put_set _ _ _ (Some ?d')) _ => destruct (P d' C) as (P1 & _); apply named_check; exists i, d'; split; [exact P1|reflexivity] end.
Qed.

(** ** The texts of the answers *)
Definition one_line_op (o : op N) : Prop := match o with OpSave _ _ p _ | OpSaveGroup _ _ p _ => one_line (T_ p) | _ => True end.
Lemma says_one_line ws line o : words ws line -> one_line line -> says N IO ws o -> one_line_op o.
Proof.
  intros W O S. assert (H : forall w, In w ws -> one_line (T_ (str w))) by (intros w Hw; apply (word_clean _ _ _ W O Hw)).
  inversion S; subst; cbn [one_line_op]; auto; apply H; cbn; auto.
Qed.
Ltac first_line := match goal with |- good ?t => let rec go l := lazymatch l with
     | ?a ++ endl ++ ?r => constr:(((a ++ endl), r)) | ?a ++ ?r => let x := go r in lazymatch x with (?b, ?c) => constr:(((a ++ b), c)) end end in
   let x := go t in lazymatch x with (?b, ?c) => replace t with (b ++ c) by (rewrite <- !app_assoc; reflexivity) end end.
Ltac lines := repeat (first_line; apply good_app; [gl|]); try gl.
Lemma show_info_good title i : match T_ title with [] => False | c :: _ => c <> "E"%char end -> one_line (T_ title) -> one_line (T_ (i_name i)) -> good (show_info title i).
Proof.
  intros H1 H2 H3. unfold show_info. first_line. apply good_app; [unfold endl; now apply good_text|]. lines.
Qed.
Lemma show_list_good l : (forall i, In i l -> one_line (T_ (i_name i))) -> good (show_list l).
Proof.
  intros H. unfold show_list. first_line. apply good_app; [gl|]. apply good_app; [apply good_endl|]. apply good_flat. intros i Hi. specialize (H i Hi). unfold list_line.
  assert (O9 : one_line ["009"%char]) by (intros [X|[]]; discriminate X). destruct (i_normalized i), (i_grouped i); gl.
Qed.
Lemma report_good p o s s' v : (forall x, one_line (io_print IO p x)) -> one_line_op o -> (forall q, named N s' q -> one_line (T_ q)) ->
  step s o = Done N s' v -> clear true (report N IO p o v).
Proof.
  intros Pr O Nm E. apply step_value_named in E.
  destruct o; cbn [report one_line_op] in *; try exact I; try (match goal with |- clear true ?t => assert (G : good t) by gl; apply G end).
  - destruct v; try exact I. apply (show_info_good _ i); [cbn; discriminate|apply literal_one_line; reflexivity|auto].
  - destruct v; try exact I. apply show_list_good. auto.
  - destruct v; try exact I. match goal with |- clear true ?t => assert (G : good t) by lines; apply G end.
  - destruct v; try exact I. apply print_line_clear. apply one_line_app. split; [apply literal_one_line; reflexivity|apply print_Z_one_line].
  - destruct v; try exact I. unfold show_match. match goal with |- clear true ?t => assert (G : good t) by gl; apply G end.
  - destruct v; try exact I. apply (show_info_good _ i0); [cbn; discriminate|apply literal_one_line; reflexivity|auto].
Qed.

(** ** Errors *)
Lemma helps_good w : known w \/ In w [T_ "help"; T_ "exit"; T_ "quit"] -> good (showHelp w).
Proof.
  intros [(c & lo & hi & H & ->)|H].
  - cbn in H. repeat (destruct H as [H|H]; [injection H as <- _ _; apply good_dec; vm_compute; reflexivity|]). destruct H.
  - cbn in H. repeat (destruct H as [<-|H]; [apply good_dec; vm_compute; reflexivity|]). destruct H.
Qed.
Lemma helps_unknown w : ~ known w -> ~ In w [T_ "help"; T_ "exit"; T_ "quit"] -> showHelp w = T_ "Error! " ++ T_ "Cannot find help for command: " ++ w ++ endl.
Proof.
  intros H1 H2. unfold showHelp. rewrite !text_eqb_neq by (intros ->; apply H2; cbn; tauto). cbn [orb].
  unfold helps. cbn [lookup]. repeat (rewrite text_eqb_neq; [|intros ->; apply H1; unfold known; do 3 eexists; split; [|reflexivity]; cbn; tauto]). reflexivity.
Qed.
Lemma known_dec w : {known w} + {~ known w}.
Proof.
  destruct (existsb (fun c => text_eqb w (T_ (fst c))) limits) eqn:E; [left|right].
  - apply existsb_exists in E as ((c & lo & hi) & H & E). apply text_eqb_iff in E. exists c, lo, hi. auto.
  - intros (c & lo & hi & H & ->). assert (existsb (fun c0 => text_eqb (T_ c) (T_ (fst c0))) limits = true); [|congruence]. apply existsb_exists. exists (c, (lo, hi)). split; auto. now apply text_eqb_iff.
Qed.
Lemma in_dec_text (w : text) l : {In w l} + {~ In w l}.
Proof. apply in_dec. apply list_eq_dec. apply ascii_dec. Qed.
Definition reply_of (n : next N) : option (reply N) := match n with Prompt _ _ r | Ended _ _ r => Some r | _ => None end.
Lemma error_iff e k line ws w p n r : stod_ok IO -> one_line line -> one_line (e_elapsed e) -> (forall x, one_line (io_print IO 4 x) /\ one_line (io_print IO (k_prec N k) x)) ->
  (forall q, named N (c_api N (kc k)) q -> clean q) -> words ws line ->
  k_line N IO writable e k line = (w, p, n) -> reply_of n = Some r -> (error_line w <-> refused N ws r).
Proof.
  intros SO O Oe Pr Nm W0 E R. pose proof (line_cases e k line SO) as L. rewrite E in L.
  assert (Fine : forall t, good t -> (error_line (t ++ endl) <-> False)).
  { intros t G. split; [|intros []]. apply clear_no_error. apply good_app; [exact G|apply good_endl]. }
  assert (Same : forall ws', words ws' line -> ws' = ws) by (intros ws' W'; rewrite <- (words_tokens _ _ W'); now apply words_tokens).
  inversion L as [ws' W X|w' ws' W|W|w' W|ws' t m W Hm|ws' W|ws' b c' W Hc|ws' W|ws' W|ws' o W S C Eo]; subst; cbn [reply_of] in R; try injection R as <-.
  - apply (Fine []). apply good_nil.
  - apply (Fine []). apply good_nil.
  - rewrite (Fine showAllHelps) by (apply good_dec; vm_compute; reflexivity). cbn [refused]. apply Same in W. split; [intros []|]. intros (x & Ex & _). congruence.
  - apply Same in W. subst ws. cbn [refused]. destruct (known_dec w') as [K|K]; [|destruct (in_dec_text w' [T_ "help"; T_ "exit"; T_ "quit"]) as [K2|K2]].
    + rewrite (Fine (showHelp w')) by (apply helps_good; auto). split; [intros []|]. intros (x & Ex & H & _). injection Ex as <-. auto.
    + rewrite (Fine (showHelp w')) by (apply helps_good; auto). split; [intros []|]. intros (x & Ex & _ & H). injection Ex as <-. auto.
    + rewrite (helps_unknown _ K K2). rewrite <- app_assoc. split; [|intros _; apply (error_good []); apply good_nil]. intros _. exists w'. auto.
  - assert (Er : refused N ws m) by (cbn in Hm; repeat destruct Hm as [<-|Hm]; try exact I; destruct Hm).
    split; [auto|]. intros _. apply (error_good []). apply good_nil.
  - split; [|intros []]. intros X. exfalso. revert X. apply clear_no_error. apply clearb_iff. vm_compute. reflexivity.
  - apply (Fine (show_timer b)). apply good_dec. destruct b; vm_compute; reflexivity.
  - split; [intros _; exact I|]. intros _. apply (error_good []). apply good_nil.
  - discriminate R.
  - clear Eo L. rewrite (says_line e k line ws' o W S C) in E. rename E into Eo. unfold op_said in Eo. destruct (step (c_api N (kc k)) o) as [s v|s x|u|] eqn:Es; cbn [finish] in Eo.
    + pose proof (f_equal (fun x => fst (fst x)) Eo) as Ew. pose proof (f_equal snd Eo) as En. cbn [fst snd] in Ew, En. clear Eo. subst w n. cbn in R. injection R as <-. cbn [refused]. split; [|intros []]. apply clear_no_error. rewrite <- !app_assoc.
      pose proof (library_good (c_api N (kc k)) o) as (G1 & G2). apply clear_app. rewrite G2. split; [exact G1|].
      match goal with |- clear true (?tm ++ _) => assert (Tg : good tm) by (destruct (_ && _); [gl|apply good_nil]) end.
      destruct Tg as (G3 & G4). apply (proj2 (clear_app _ _ _)). rewrite G4. split; [exact G3|]. apply (proj2 (clear_app _ _ _)). split; [|apply clear_weak; cbn; split; [discriminate|auto]].
      refine (report_good _ o (c_api N (kc k)) s v _ _ _ Es); [intros x; destruct (_ && _); apply Pr|eapply says_one_line; eauto|].
      intros q Hq. assert (Af : after N (step (c_api N (kc k)) o) = Some s) by now rewrite Es.
      destruct (step_named _ _ _ _ Af Hq) as [Hn|(m & c0 & seps & ->)]; [apply (Nm q Hn)|]. destruct (says_load_word _ _ _ _ _ S) as (x & Hx & ->). apply (word_clean _ _ _ W O Hx).
    + pose proof (library_good (c_api N (kc k)) o) as G. destruct x; pose proof (f_equal (fun x => fst (fst x)) Eo) as Ew; pose proof (f_equal snd Eo) as En; cbn [fst snd] in Ew, En; clear Eo; subst w n; cbn in R; injection R as <-; (split; [intros _; exact I|intros _]).
      * apply error_good. exact G.
      * apply (error_good _ (T_ "Cannot convert some value to numeric" ++ endl ++ endl)). exact G.
      * apply (error_good _ (T_ "Unknown error" ++ endl ++ endl)). exact G.
    + injection Eo as _ _ <-. discriminate R.
    + injection Eo as _ _ <-. discriminate R.
Qed.
End Lines.
