(** * Proofs about the console. *)
From Coq Require Import ZArith Bool Lia Ascii String List.
From Verif Require Import Outcome Num Lemire Distance TimeSeries Text Dataset Groups Api DecSpec NumSpec FileSpec DecProofs LoadProofs StreamProofs Cli CliSpec CliProofs Console ConsoleSpec.
Import ListNotations.
Open Scope Z_scope.

Section Console.
Context (N : NumOps) (IO : NumIO N) (writable : string -> bool).
Local Notation con := (con N).
Local Notation cli := (cli N).
Local Notation kc := (k_cli N).

(** ** Without the text it is the program of Cli.v. *)
Lemma call_erase k o show : snd (call N IO writable k o show) = api_call N IO writable (kc k) o.
Proof. destruct o as [o|e| |]; cbn [call api_call]; try reflexivity. destruct (step N IO writable (c_api N (kc k)) o); reflexivity. Qed.
Lemma timed_erase e k o show : snd (timed_call N IO writable e k o show) = api_call N IO writable (kc k) o.
Proof.
  unfold timed_call. destruct (c_timer N (kc k)); [|apply call_erase]. rewrite <- (call_erase k o (fun _ o v => T_ "Command executed in " ++ e_elapsed e ++ T_ "s" ++ endl ++ show 4 o v)).
  destruct (call N IO writable k o _) as ((t & p) & []); reflexivity.
Qed.
Lemma counted_erase k args lo hi body : snd (counted_args N k args lo hi body) = if badArgs args lo hi then Ran N (kc k) false (RArgs N) else snd body.
Proof. unfold counted_args, badArgs. destruct (zlen args <? lo); [reflexivity|]. destruct (hi <? zlen args); reflexivity. Qed.
Lemma list_erase k args : snd (k_list N IO writable k args) = cmdList N IO writable (kc k) args.
Proof.
  unfold k_list, cmdList. rewrite counted_erase. destruct (badArgs _ _ _); auto. destruct (arg args 1) as [t| | |]; auto.
  destruct (text_eqb t _); [|destruct (text_eqb t _); reflexivity]. rewrite call_erase. reflexivity.
Qed.
Lemma timer_erase k args : snd (k_timer N k args) = cmdTimer N (kc k) args.
Proof.
  unfold k_timer, cmdTimer. rewrite counted_erase. destruct (badArgs _ _ _); auto. destruct (zlen args =? 1); auto. destruct (arg args 1) as [t| | |]; auto.
  destruct (text_eqb t _); [|destruct (text_eqb t _)]; reflexivity.
Qed.
Lemma lookup_erase e k args : forall a, option_map (fun f => snd (f k args)) (lookup a (k_commands N IO writable e)) =
  option_map (fun f => f (kc k) args) (lookup a (commands N IO writable (e_clock e))).
Proof.
  intros a. unfold k_commands, commands. cbn [lookup].
  repeat match goal with |- option_map _ (if text_eqb a ?n then _ else _) = _ => destruct (text_eqb a n); [cbn [option_map]; f_equal|] end; [..|reflexivity].
  all: try (unfold k_load, k_save, k_unload, k_group, k_saveGroup, k_loadGroup, k_normalize, k_paa, k_match, cmdLoad, cmdSave, cmdUnload, cmdGroup, cmdSaveGroup, cmdLoadGroup, cmdNormalize, cmdPAA, cmdMatch;
    rewrite counted_erase; first [rewrite call_erase|rewrite timed_erase]; reflexivity).
  - apply list_erase.
  - apply timer_erase.
Qed.
Lemma process_erase e k line : snd (k_processLine N IO writable e k line) = processLine N IO writable (e_clock e) (kc k) line.
Proof.
  unfold k_processLine, processLine. destruct (tokens [sp] line) as [|a r]; [reflexivity|]. destruct (starts_comment a); [reflexivity|].
  destruct (_ || _); [reflexivity|]. destruct (text_eqb a (T_ "help")).
  - destruct (_ =? 1); [reflexivity|]. destruct (_ =? 2); reflexivity.
  - pose proof (lookup_erase e k (a :: r) a) as H. destruct (lookup a (k_commands N IO writable e)), (lookup a (commands N IO writable (e_clock e))); cbn in H; try discriminate; [|reflexivity].
    now injection H.
Qed.
Lemma line_erase e k line : snd (k_line N IO writable e k line) = main_line N IO writable (e_clock e) (kc k) line.
Proof.
  unfold k_line, main_line. rewrite <- process_erase. destruct (k_processLine N IO writable e k line) as ((t & p) & [c [] r|c []| |]); reflexivity.
Qed.
Definition plain (i : env * option text) : (Z -> bool) * option text := (e_clock (fst i), snd i).
Lemma run_erase ins : forall asking k, snd (k_run N IO writable asking k ins) = cli_run N IO writable asking (kc k) (map plain ins).
Proof.
  induction ins as [|(e & l) ins IH]; intros asking k; [reflexivity|]. cbn [map plain fst snd k_run cli_run]. destruct asking.
  - destruct l as [t|]; [|reflexivity]. destruct (_ || _); [reflexivity|]. apply IH.
  - destruct l as [t|]; [|rewrite <- IH; now destruct (k_run N IO writable true k ins)]. rewrite <- line_erase.
    destruct (k_line N IO writable e k t) as ((w & p) & [c r|c r| |]); try reflexivity. cbn [snd]. pose proof (IH false (mkCon N c p)) as E. cbn [k_cli] in E. rewrite <- E.
    now destruct (k_run N IO writable false (mkCon N c p) ins).
Qed.
(** ** The relation [typed] and runs. *)
Lemma unclear_run answers : forall k e' rest, Forall unclear answers -> k_run N IO writable true k (answers ++ (e', Some (T_ "n")) :: rest) = k_run N IO writable false k rest.
Proof.
  induction answers as [|(e & l) answers IH]; intros k e' rest F; [reflexivity|]. inversion F as [|? ? H F']; subst. unfold unclear in H. cbn [snd] in H.
  destruct l as [t|]; [|destruct H]. cbn [app k_run]. cbn [In] in H. rewrite !text_eqb_neq by (intros E; apply H; rewrite E; tauto). cbn [orb negb]. auto.
Qed.
Lemma typed_run files ins k out P rest : typed N IO writable files ins k out P ->
  k_run N IO writable false (con_init N files) (ins ++ rest) = (out ++ fst (k_run N IO writable false k rest), snd (k_run N IO writable false k rest)).
Proof.
  intros T. revert rest. induction T as [|ins k out P e line w p c r T IH E|ins k out P e answers e' T IH F]; intros rest.
  - cbn. now destruct (k_run _ _ _ _ _ _).
  - rewrite <- app_assoc, IH. cbn [app k_run]. rewrite E. destruct (k_run N IO writable false (mkCon N c p) rest). cbn [fst snd]. now rewrite <- app_assoc.
  - rewrite <- app_assoc, IH. cbn [app k_run]. rewrite <- app_assoc. cbn [app]. rewrite unclear_run by auto. destruct (k_run N IO writable false k rest). cbn [fst snd].
    now rewrite <- app_assoc.
Qed.

(** ** What a line writes. *)
Definition report (p : Z) (o : op N) (v : value N) : text :=
  match o, v with
  | OpLoad _ _ _ _ _, VInfo _ i => show_info "Dataset loaded                         " i
  | OpSave _ i f _, _ => T_ "Saved dataset " ++ print_Z i ++ T_ " to " ++ T_ f ++ endl
  | OpUnload _ i, _ => T_ "Dataset " ++ print_Z i ++ T_ " is unloaded" ++ endl
  | OpAllInfo _, VInfos _ l => show_list l
  | OpNormalize _ i, _ => T_ "Dataset " ++ print_Z i ++ T_ " is now normalized" ++ endl
  | OpGroup _ i _ _, VInt _ n => T_ "Dataset " ++ print_Z i ++ T_ " is now grouped" ++ endl ++ T_ "Number of Groups: " ++ print_Z n ++ endl
  | OpSaveGroup _ i f _, _ => T_ "Saved groups of dataset " ++ print_Z i ++ T_ " to " ++ T_ f ++ endl
  | OpLoadGroup _ i _, VInt _ n => print_Z n ++ T_ " groups loaded for dataset " ++ print_Z i
  | OpPAA _ _ _, VInfo _ i => show_info "Dataset PAA-ed                     " i
  | OpMatch _ _ _ _ _ _, VCand _ c => show_match N IO p c
  | _, _ => []
  end.
Definition timedb (o : op N) : bool := match o with OpGroup _ _ _ _ | OpMatch _ _ _ _ _ _ => true | _ => false end.
Definition op_said (e : env) (k : con) (o : op N) : said N :=
  match step N IO writable (c_api N (kc k)) o with
  | Done _ s v =>
      let clocked := timedb o && c_timer N (kc k) in
      let p := if clocked then 4 else k_prec N k in
      (library N IO (c_api N (kc k)) o ++ (if clocked then T_ "Command executed in " ++ e_elapsed e ++ T_ "s" ++ endl else []) ++ report p o v,
       p, Ran N (mkCli N s (c_timer N (kc k))) false (RAnswer N v))
  | Exn _ s x => (library N IO (c_api N (kc k)) o, k_prec N k, Raised N (mkCli N s (c_timer N (kc k))) x)
  | Bad _ u => ([], k_prec N k, Undef N u)
  | Hang _ => ([], k_prec N k, Loops N)
  end.
Lemma call_said e k o show : (forall p v, show p o v = report p o v) -> timedb o = false -> call N IO writable k (Ok o) show = op_said e k o.
Proof. intros H T. cbn [call]. unfold op_said. rewrite T. cbn [andb app]. destruct (step N IO writable (c_api N (kc k)) o); auto. now rewrite H. Qed.
Lemma timed_said e k o show : (forall p v, show p o v = report p o v) -> timedb o = true -> timed_call N IO writable e k (Ok o) show = op_said e k o.
Proof.
  intros H T. unfold timed_call, op_said. rewrite T. cbn [andb call]. destruct (c_timer N (kc k)); destruct (step N IO writable (c_api N (kc k)) o); auto; rewrite H; auto.
  repeat rewrite <- app_assoc. reflexivity.
Qed.
Definition said_command (e : env) (k : con) (a : text) (args : list text) : said N :=
  match lookup a (k_commands N IO writable e) with
  | None => just N k (T_ "Error! Cannot find command: " ++ a ++ endl) (Ran N (kc k) false (RUnknown N))
  | Some f => f k args
  end.
Ltac kruns := unfold said_command; cbn [lookup k_commands text_eqb T_ list_ascii_of_string Ascii.eqb Bool.eqb andb];
  unfold k_load, k_save, k_unload, k_list, k_timer, k_group, k_saveGroup, k_loadGroup, k_normalize, k_paa, k_match, counted_args.
Ltac ksteps := kruns; cbv beta iota zeta delta [zlen List.length Z.of_nat Pos.of_succ_nat Pos.succ Z.ltb Z.compare Pos.compare Pos.compare_cont
     int_arg arg zget Z.to_nat Pos.to_nat Pos.iter_op Nat.add nth_error Z.eqb Pos.eqb fst snd List.hd];
     cbn [bind]; repeat match goal with H : stoi _ = _ |- _ => rewrite H; cbn [bind] end.
Lemma says_said e k w ws o : says N IO (w :: ws) o -> at_clock N (e_clock e) o -> said_command e k w (w :: ws) = op_said e k o.
Proof.
  intros H C. inversion H; subst; clear H;
    try (match goal with H : (_ <= 3)%nat |- _ => destruct r as [|? [|? [|? [|? r]]]]; [| | | |cbn in H; lia]; clear H end);
    repeat match goal with H : int_word _ _ |- _ => apply stoi_iff in H end.
  all: ksteps.
  all: try match goal with H : io_stod _ _ = _ |- _ => rewrite H; cbn [bind]; cbn in C; subst end.
  all: try (apply call_said; [intros p0 []|]; reflexivity).
  all: try (apply timed_said; [intros p0 []|]; reflexivity).
  - destruct (Ascii.eqb_spec ch nl) as [->|_]; [unfold nl in *; congruence|]. apply call_said; reflexivity.
  - destruct z; [congruence|apply call_said; reflexivity|apply call_said; reflexivity].
Qed.

Definition k_classified (e : env) (k : con) (ws : list text) (x : said N) : Prop :=
  (exists o, says N IO ws o /\ at_clock N (e_clock e) o /\ x = op_said e k o) \/
  (exists t m, x = (T_ "Error! " ++ t, k_prec N k, Ran N (kc k) false m) /\ In m [RUnknown N; RArgs N; RRefused N]) \/
  (x = (T_ " " ++ pad 10 (T_ "euclidean") ++ endl ++ T_ " " ++ pad 10 (T_ "euclidean_dtw") ++ endl, k_prec N k, Ran N (kc k) false (RDistances N))) \/
  (exists b c, x = (show_timer b, k_prec N k, Ran N c false (RTimer N b)) /\ c_api N c = c_api N (kc k)) \/
  (exists y, x = ([], k_prec N k, Raised N (kc k) (LogicExn y))) \/
  (match_no_end ws /\ x = ([], k_prec N k, Undef N OutOfBounds)).
Lemma k_does e k w ws o : says N IO (w :: ws) o -> at_clock N (e_clock e) o -> k_classified e k (w :: ws) (said_command e k w (w :: ws)).
Proof. intros H C. left. exists o. repeat split; auto. now apply says_said. Qed.
Lemma lookup_known e w f : lookup w (k_commands N IO writable e) = Some f -> known w.
Proof.
  intros L. unfold k_commands in L. cbn [lookup] in L.
  repeat match type of L with (if text_eqb w (T_ ?n) then _ else _) = _ =>
      let E := fresh in destruct (text_eqb w (T_ n)) eqn:E;
      [apply text_eqb_iff in E; subst w; unfold known; do 3 eexists; split; [|reflexivity]; cbn; tauto|] end. discriminate.
Qed.
Lemma counted_bad k args lo hi body : ~ lo <= zlen args <= hi -> exists t, counted_args N k args lo hi body = (T_ "Error! " ++ t, k_prec N k, Ran N (kc k) false (RArgs N)).
Proof.
  intros H. unfold counted_args. destruct (Z.ltb_spec (zlen args) lo); [eexists; reflexivity|]. destruct (Z.ltb_spec hi (zlen args)); [eexists; reflexivity|]. lia.
Qed.
Lemma limits_said e k n lo hi ws : In (n, (lo, hi)) limits -> ~ lo <= zlen ws <= hi ->
  exists t, said_command e k (T_ n) (T_ n :: ws) = (T_ "Error! " ++ t, k_prec N k, Ran N (kc k) false (RArgs N)).
Proof.
  intros H Hw. assert (B : ~ 1 + lo <= zlen (T_ n :: ws) <= 1 + hi) by (rewrite zlen_cons; lia). cbn in H.
  repeat (destruct H as [H|H]; [injection H as <- <- <-; unfold said_command; cbn [lookup k_commands text_eqb T_ list_ascii_of_string Ascii.eqb Bool.eqb andb];
    cbv beta delta [k_load k_save k_unload k_list k_timer k_group k_saveGroup k_loadGroup k_normalize k_paa k_match]; cbn [Z.add Pos.add Pos.succ] in B; apply counted_bad; exact B|]). destruct H.
Qed.
Ltac kthrows := right; right; right; right; left; ksteps; eexists; reflexivity.
Ltac kint a := let z := fresh "z" in let E := fresh "E" in let W := fresh "W" in let k := fresh "k" in
  destruct (stoi_cases a) as [(z & E & W)|(k & E & W)]; [|first [kthrows | idtac]].
Lemma said_cases e k (w : text) (ws : list text) : stod_ok IO -> Forall (fun w : text => w <> []) ws -> k_classified e k (w :: ws) (said_command e k w (w :: ws)).
Proof.
  intros SO NE. destruct (lookup w (k_commands N IO writable e)) as [fn|] eqn:L;
    [|right; left; unfold said_command; rewrite L; exists (T_ "Cannot find command: " ++ w ++ endl), (RUnknown N); split; [reflexivity|cbn; tauto]].
  apply lookup_known in L. destruct L as (n & lo & hi & H & ->). destruct (Z.ltb_spec (zlen ws) lo) as [Hl|Hl].
  { right. left. destruct (limits_said e k n lo hi ws H) as (t & Et); [lia|]. exists t, (RArgs N). split; [exact Et|cbn; tauto]. }
  destruct (Z.ltb_spec hi (zlen ws)) as [Hh|Hh].
  { right. left. destruct (limits_said e k n lo hi ws H) as (t & Et); [lia|]. exists t, (RArgs N). split; [exact Et|cbn; tauto]. }
  cbn in H. repeat (destruct H as [H|H]; [injection H as <- <- <-|]).
  12: destruct H.
  - destruct ws as [|p [|a [|b [|t [|? ws]]]]]; try toolong; try tooshort.
    + eapply k_does; [apply says_load|exact I].
    + kint a. eapply k_does; [apply says_load_rows; eauto|exact I].
    + kint a. kint b. eapply k_does; [apply says_load_cols; eauto|exact I].
    + kint a. kint b. eapply k_does; [apply says_load_seps; eauto|exact I].
  - destruct ws as [|a [|p [|t [|? ws]]]]; try toolong; try tooshort; kint a.
    + eapply k_does; [apply says_save; eauto|exact I].
    + destruct t as [|ch t].
      * exfalso. rewrite !Forall_cons_iff in NE. tauto.
      * destruct (Ascii.eqb_spec ch "010"%char) as [->|]; [eapply k_does; [apply says_save_nl; eauto|exact I]|eapply k_does; [apply says_save_sep; eauto|exact I]].
  - destruct ws as [|a r]; [tooshort|]. destruct (stoi_cases a) as [(z & E & W)|(y & E & _)].
    + eapply k_does; [apply says_unload; eauto|exact I]. rewrite zlen_cons in Hh. unfold zlen in Hh. lia.
    + destruct r as [|? [|? [|? [|? r]]]]; [kthrows|kthrows|kthrows|kthrows|toolong].
  - destruct ws as [|t [|? ws]]; try toolong; try tooshort. destruct (text_eqb t (T_ "dataset")) eqn:E1.
    { apply text_eqb_iff in E1 as ->. eapply k_does; [apply says_list|exact I]. }
    destruct (text_eqb t (T_ "distance")) eqn:E2; right.
    + right. left. ksteps. fold (T_ "dataset"). fold (T_ "distance"). rewrite E1, E2. reflexivity.
    + left. exists (T_ "Unknown object: " ++ t ++ endl), (RRefused N). split; [|cbn; tauto]. ksteps. rewrite E1, E2. reflexivity.
  - destruct ws as [|t [|? ws]]; try toolong; try tooshort.
    { right. right. right. left. exists (c_timer N (kc k)), (kc k). split; reflexivity. }
    destruct (text_eqb t (T_ "on")) eqn:E1.
    { apply text_eqb_iff in E1 as ->. right. right. right. left. eexists true, _. split; reflexivity. }
    destruct (text_eqb t (T_ "off")) eqn:E2.
    { apply text_eqb_iff in E2 as ->. right. right. right. left. eexists false, _. split; reflexivity. }
    right. left. exists (T_ "Argument for timer must be 'on' or 'off'" ++ endl), (RRefused N). split; [|cbn; tauto]. ksteps. rewrite E1, E2. reflexivity.
  - destruct ws as [|a [|b [|? ws]]]; try toolong; try tooshort; kint a.
    2: { right. right. right. right. left. exists k0. ksteps. unfold timed_call. now destruct (c_timer N (kc k)). }
    destruct (SO b) as [(v & Ev)|(y & Ev)].
    + eapply k_does; [apply says_group; eauto|reflexivity].
    + right. right. right. right. left. exists y. ksteps. rewrite Ev. unfold timed_call. now destruct (c_timer N (kc k)).
  - destruct ws as [|a [|p [|b [|? ws]]]]; try toolong; try tooshort; kint a.
    + eapply k_does; [apply says_saveGroup; eauto|exact I].
    + kint b. destruct (Z.eqb_spec z0 0) as [->|]; [eapply k_does; [apply says_saveGroup_full; eauto|exact I]|eapply k_does; [apply says_saveGroup_only with z0; eauto|exact I]].
  - destruct ws as [|a [|p [|? ws]]]; try toolong; try tooshort; kint a. eapply k_does; [apply says_loadGroup; eauto|exact I].
  - destruct ws as [|a [|? ws]]; try toolong; try tooshort; kint a. eapply k_does; [apply says_normalize; eauto|exact I].
  - destruct ws as [|a [|b [|? ws]]]; try toolong; try tooshort; kint a. kint b. eapply k_does; [apply says_paa; eauto|exact I].
  - assert (Tt : forall y show, timed_call N IO writable e k (Throw (LogicExn y)) show = ([], k_prec N k, Raised N (kc k) (LogicExn y)))
      by (intros y show; unfold timed_call; now destruct (c_timer N (kc k))).
    assert (Tu : forall show, timed_call N IO writable e k (UB OutOfBounds) show = ([], k_prec N k, Undef N OutOfBounds))
      by (intros show; unfold timed_call; now destruct (c_timer N (kc k))).
    destruct ws as [|a [|b [|d [|x [|f [|? ws]]]]]]; try toolong; try tooshort.
    + kint a; [|right; right; right; right; left; eexists; ksteps; apply Tt]. kint b; [|right; right; right; right; left; eexists; ksteps; apply Tt].
      kint d; [|right; right; right; right; left; eexists; ksteps; apply Tt]. eapply k_does; [apply says_match; eauto|exact I].
    + kint a; [|right; right; right; right; left; eexists; ksteps; apply Tt]. kint b; [|right; right; right; right; left; eexists; ksteps; apply Tt].
      kint d; [|right; right; right; right; left; eexists; ksteps; apply Tt]. kint x; [|right; right; right; right; left; eexists; ksteps; apply Tt].
      right. right. right. right. right. split; [|ksteps; apply Tu]. exists a, b, d, x, z, z0, z1, z2. auto.
    + kint a; [|right; right; right; right; left; eexists; ksteps; apply Tt]. kint b; [|right; right; right; right; left; eexists; ksteps; apply Tt].
      kint d; [|right; right; right; right; left; eexists; ksteps; apply Tt]. kint x; [|right; right; right; right; left; eexists; ksteps; apply Tt].
      kint f; [|right; right; right; right; left; eexists; ksteps; apply Tt]. eapply k_does; [apply says_match_part; eauto|exact I].
Qed.
End Console.
