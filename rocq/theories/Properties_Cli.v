(** * Property C49: the command line.

    [main_line clock c line] is what the program does with one line typed at its prompt when its state is [c] (the session of
    the API and the timer flag); [cli_run] is a whole run.  [words], [says], [limits], [int_positions], [int_word] and [shows] are defined in
    CliSpec.v.  Stated for any arithmetic and number format, so in particular for doubles. *)
From Coq Require Import ZArith Bool Lia SpecFloat Ascii String List.
From Verif Require Import Outcome Num Lemire Distance TimeSeries Text Dataset Groups Api F64Base DecSpec NumSpec FileSpec DecProofs LoadProofs StreamProofs.
From Verif Require Import GroupSpec Cli CliSpec CliProofs Properties_Groups Properties_Indep Properties_Api Properties_Load.
Import ListNotations.
Open Scope Z_scope.

Ltac fin := solve [eexists; steps; reflexivity].
Ltac int_case x := destruct (stoi_cases x) as [(? & ? & _)|(? & ? & _)].

Section C49.
Context (N : NumOps) (IO : NumIO N) (writable : string -> bool).
Local Notation cli := (cli N).
Local Notation main_line := (main_line N IO writable).
Local Notation step := (step N IO writable).

(** Every line has exactly one list of words. *)
Theorem C49_words : forall line, exists ws, words ws line /\ forall ws', words ws' line -> ws' = ws.
Proof.
  intros line. exists (tokens [sp] line). split; [apply tokens_words|]. intros ws' H. symmetry. now apply words_tokens.
Qed.

(** Blank lines, comments, help and unknown commands: a message at most; the state is the same. *)
Theorem C49_blank : forall clock c line, words [] line -> main_line clock c line = Prompt N c (RNothing N).
Proof. intros clock c line H. rewrite main_caught. unfold processLine. now rewrite (words_tokens _ _ H). Qed.
Theorem C49_comment : forall clock c line w ws, words (w :: ws) line -> comment w -> main_line clock c line = Prompt N c (RNothing N).
Proof. intros clock c line w ws H Hc. rewrite main_caught. unfold processLine. rewrite (words_tokens _ _ H). apply starts_iff in Hc. now rewrite Hc. Qed.
Theorem C49_help : forall clock c line ws, words (T_ "help" :: ws) line ->
  main_line clock c line = Prompt N c (if (List.length ws <=? 1)%nat then RHelp N else RArgs N).
Proof.
  intros clock c line ws H. rewrite main_caught. unfold processLine. rewrite (words_tokens _ _ H).
  change (starts_comment (T_ "help")) with false. change (text_eqb (T_ "help") (T_ "quit")) with false.
  change (text_eqb (T_ "help") (T_ "exit")) with false. change (text_eqb (T_ "help") (T_ "help")) with true. cbn [orb].
  destruct ws as [|x [|y ws]]; [reflexivity|reflexivity|]. cbn [List.length Nat.leb]. rewrite !zlen_cons. pose proof (zlen_nonneg ws).
  destruct (Z.eqb_spec (1 + (1 + (1 + zlen ws))) 1); [lia|]. destruct (Z.eqb_spec (1 + (1 + (1 + zlen ws))) 2); [lia|]. reflexivity.
Qed.
Theorem C49_unknown : forall clock c line w ws, words (w :: ws) line -> ~ comment w -> ~ known w ->
  ~ In w [T_ "quit"; T_ "exit"; T_ "help"] -> main_line clock c line = Prompt N c (RUnknown N).
Proof.
  intros clock c line w ws H Hc Hk Hq. cbn [In] in Hq.
  assert (w <> T_ "quit" /\ w <> T_ "exit" /\ w <> T_ "help") as (H1 & H2 & H3) by (repeat split; intros E; apply Hq; rewrite E; auto).
  rewrite main_caught. rewrite (process_words N IO writable clock c line w ws) by assumption.
  unfold run_command. now rewrite lookup_unknown.
Qed.

(** Too few or too many arguments: a message; the state is the same. *)
Theorem C49_argument_count : forall clock c line n lo hi ws, In (n, (lo, hi)) limits -> words (T_ n :: ws) line ->
  ~ (lo <= zlen ws <= hi) -> main_line clock c line = Prompt N c (RArgs N).
Proof.
  intros clock c line n lo hi ws Hn H Hl.
  destruct (known_plain (T_ n)) as (K1 & K2 & K3 & K4); [unfold known; eauto 6|].
  rewrite main_caught. rewrite (process_words N IO writable clock c line (T_ n) ws) by auto. now rewrite (limits_run N IO writable clock c n lo hi).
Qed.

(** A well formed command line does exactly the operation that it says, and shows its result. *)
Theorem C49_executes : forall clock c line ws o, words ws line -> says N IO ws o -> at_clock N clock o ->
  main_line clock c line = shows N (c_timer N c) (step (c_api N c) o).
Proof.
  intros clock c line ws o H S C. destruct (says_known N IO ws o S) as (w & r & -> & K).
  destruct (known_plain w K) as (K1 & K2 & K3 & K4).
  rewrite main_caught, (process_words N IO writable clock c line w r), (says_run N IO writable clock c w r o), caught_res; auto.
Qed.

(** The timer is switched on and off; this does not touch the session. *)
Theorem C49_timer : forall clock c line b, words [T_ "timer"; T_ (if b : bool then "on" else "off")] line ->
  main_line clock c line = Prompt N (mkCli N (c_api N c) b) (RTimer N b).
Proof.
  intros clock c line b H. rewrite main_caught. unfold processLine. rewrite (words_tokens _ _ H). destruct b; reflexivity.
Qed.

(** An argument that should be an integer and is not one is reported; the state is the same. *)
Theorem C49_not_numeric : forall clock c line n lo hi pos ws i w, stod_ok IO ->
  In (n, (lo, hi)) limits -> In (n, pos) int_positions -> words (T_ n :: ws) line -> lo <= zlen ws <= hi ->
  In i pos -> zget ws i = Ok w -> (forall z, ~ int_word w z) ->
  main_line clock c line = Prompt N c (RNotNumeric N).
Proof.
  intros clock c line n lo hi pos ws i w SO Hn Hp H Hl Hi Hw Hz.
  destruct (known_plain (T_ n)) as (K1 & K2 & K3 & K4); [unfold known; eauto 6|].
  rewrite main_caught. rewrite (process_words N IO writable clock c line (T_ n) ws) by auto.
  enough (G : exists k, run_command N IO writable clock c (T_ n) (T_ n :: ws) = Raised N c (LogicExn k)).
  { destruct G as (k & ->). reflexivity. }
  assert (Hk : exists k, stoi w = Throw (LogicExn k)).
  { destruct (stoi_cases w) as [(z & _ & Hw')|(k & E & _)]; [now apply Hz in Hw'|eauto]. }
  destruct Hk as (k0 & Hk). clear Hz K1 K2 K3 K4 H line SO.
  assert (Hi' : 0 <= i < zlen ws) by (destruct (zget_inv ws i w Hw); lia).
  cbn in Hn. repeat (destruct Hn as [Hn|Hn]; [injection Hn as <- <- <-|]); [..|destruct Hn];
    cbn in Hp; repeat (destruct Hp as [Hp|Hp]; [try discriminate Hp; injection Hp as <-|]); try (destruct Hp);
    cbn in Hi; repeat (destruct Hi as [Hi|Hi]; [subst i|]); try (destruct Hi);
    destruct Hl as (Hl & Hh);
    (destruct ws as [|x1 [|x2 [|x3 [|x4 [|x5 [|x6 ws]]]]]]; try tooshort; try toolong);
    try (exfalso; revert Hi'; rewrite ?zlen_cons; unfold zlen; cbn [List.length]; lia);
    unfold zget in Hw; cbn [Z.ltb Z.compare Z.to_nat Pos.to_nat Pos.iter_op Nat.add nth_error] in Hw; injection Hw as ->;
    first [fin | int_case x1; fin | int_case x1; [|fin]; int_case x2; fin | int_case x1; [|fin]; int_case x2; [|fin]; int_case x3; fin
          | int_case x1; [|fin]; int_case x2; [|fin]; int_case x3; [|fin]; int_case x4; fin
          | int_case x2; fin | int_case x2; [|fin]; int_case x3; fin].
Qed.
Theorem C49_threshold_not_numeric : forall clock c line a i t k, words [T_ "group"; a; t] line -> int_word a i ->
  io_stod IO t = Throw (LogicExn k) -> main_line clock c line = Prompt N c (RNotNumeric N).
Proof.
  intros clock c line a i t k H Ha Ht. rewrite main_caught. rewrite (process_words N IO writable clock c line (T_ "group") [a; t]);
    [|auto|apply known_plain; unfold known; do 3 eexists; split; [|reflexivity]; cbn; tauto|discriminate..].
  apply stoi_iff in Ha. steps. now rewrite Ht.
Qed.

(** A match with a start but no end reads an argument that does not exist, whatever the session. *)
Theorem C49_match_without_end : forall clock c line a b d e i j k s,
  words [T_ "match"; a; b; d; e] line -> int_word a i -> int_word b j -> int_word d k -> int_word e s ->
  main_line clock c line = Crash N OutOfBounds.
Proof.
  intros clock c line a b d e i j k s H Ha Hb Hd He. rewrite main_caught. rewrite (process_words N IO writable clock c line (T_ "match") [a; b; d; e]);
    [|auto|apply known_plain; unfold known; do 3 eexists; split; [|reflexivity]; cbn; tauto|discriminate..].
  apply stoi_iff in Ha, Hb, Hd, He. steps. reflexivity.
Qed.

(** quit and exit end the program. *)
Theorem C49_quit : forall clock c line w ws, words (w :: ws) line -> w = T_ "quit" \/ w = T_ "exit" ->
  main_line clock c line = Ended N c (RNothing N).
Proof.
  intros clock c line w ws H [-> | ->]; rewrite main_caught; unfold processLine; now rewrite (words_tokens _ _ H).
Qed.

(** Every line does one of these things: it leaves the state as it is, it switches the timer, it does the API operation that
    it says, it quits, or it is a match without an end. *)
Theorem C49_every_line : forall clock c line ws, stod_ok IO -> words ws line ->
  (exists r, main_line clock c line = Prompt N c r) \/
  (exists b, ws = [T_ "timer"; T_ (if b : bool then "on" else "off")]) \/
  (exists o, says N IO ws o /\ at_clock N clock o) \/
  (exists w r, ws = w :: r /\ (w = T_ "quit" \/ w = T_ "exit")) \/
  match_no_end ws.
Proof.
  intros clock c line ws SO H. destruct ws as [|w ws]; [left; eexists; now apply C49_blank|].
  destruct (starts_comment w) eqn:Ec; [apply starts_iff in Ec; left; eexists; eapply C49_comment; eauto|].
  assert (Hc : ~ comment w) by (intros K; apply starts_iff in K; congruence).
  destruct (text_eqb w (T_ "quit")) eqn:Eq; [apply text_eqb_iff in Eq; right; right; right; left; eauto|].
  destruct (text_eqb w (T_ "exit")) eqn:Ee; [apply text_eqb_iff in Ee; right; right; right; left; eauto|].
  destruct (text_eqb w (T_ "help")) eqn:Eh; [apply text_eqb_iff in Eh as ->; left; eexists; eapply C49_help; eauto|].
  assert (w <> T_ "quit" /\ w <> T_ "exit" /\ w <> T_ "help") as (H1 & H2 & H3)
    by (repeat split; intros K; apply text_eqb_iff in K; congruence).
  destruct (run_cases N IO writable clock c w ws SO) as [(o & S & C & _)|[(m & E & _)|[(b & _ & E)|[(k & E)|(M & _)]]]]; eauto 6.
  - now apply words_nonempty in H.
  - left. exists m. rewrite main_caught, (process_words N IO writable clock c line w ws), E; auto.
  - left. exists (RNotNumeric N). rewrite main_caught, (process_words N IO writable clock c line w ws), E; auto.
Qed.

(** Only quit, exit or an API call that fails with an exception other than OnexException and logic_error end the program. *)
Theorem C49_ends : forall clock c line ws c' r, stod_ok IO -> words ws line -> main_line clock c line = Ended N c' r ->
  (c' = c /\ exists w rest, ws = w :: rest /\ (w = T_ "quit" \/ w = T_ "exit")) \/
  (exists o k, says N IO ws o /\ at_clock N clock o /\ step (c_api N c) o = Exn N (c_api N c') (OtherExn k)).
Proof.
  intros clock c line ws c' r SO H E. destruct (C49_every_line clock c line ws SO H) as [(r' & E')|[(b & ->)|[(o & S & C)|[(w & rest & -> & Q)|M]]]].
  - congruence.
  - rewrite (C49_timer clock c line b H) in E. discriminate.
  - right. rewrite (C49_executes clock c line ws o H S C) in E. destruct (step (c_api N c) o) as [s v|s [m|k|k]| |] eqn:Es; try discriminate E.
    exists o, k. cbn [shows] in E. assert (Hc : c' = mkCli N s (c_timer N c)) by congruence. rewrite Hc. auto.
  - left. rewrite (C49_quit clock c line w rest H Q) in E. split; [congruence|eauto].
  - destruct M as (x1 & x2 & x3 & x4 & i & j & k & l & -> & H1 & H2 & H3 & H4).
    rewrite (C49_match_without_end clock c line x1 x2 x3 x4 i j k l) in E by auto. discriminate.
Qed.
(** Undefined behaviour comes from the API operation that the line says, or from a match without an end. *)
Theorem C49_crashes : forall clock c line ws u, stod_ok IO -> words ws line -> main_line clock c line = Crash N u ->
  (u = OutOfBounds /\ match_no_end ws) \/ (exists o, says N IO ws o /\ at_clock N clock o /\ step (c_api N c) o = Bad N u).
Proof.
  intros clock c line ws u SO H E. destruct (C49_every_line clock c line ws SO H) as [(r' & E')|[(b & ->)|[(o & S & C)|[(w & rest & -> & Q)|M]]]].
  - congruence.
  - rewrite (C49_timer clock c line b H) in E. discriminate.
  - right. rewrite (C49_executes clock c line ws o H S C) in E. destruct (step (c_api N c) o) as [s v|s [m|k|k]| |] eqn:Es; try discriminate E.
    exists o. cbn [shows] in E. split; auto. split; auto. congruence.
  - rewrite (C49_quit clock c line w rest H Q) in E. discriminate.
  - left. pose proof M as (x1 & x2 & x3 & x4 & i & j & k & l & -> & H1 & H2 & H3 & H4).
    rewrite (C49_match_without_end clock c line x1 x2 x3 x4 i j k l) in E by auto. split; auto. congruence.
Qed.

(** ** Whole runs. *)
Lemma line_reach clock c line c' : stod_ok IO -> state_after N (main_line clock c line) = Some c' ->
  reachable N IO writable (c_api N c) -> reachable N IO writable (c_api N c').
Proof.
  intros SO A R. destruct (C49_words line) as (ws & H & _).
  destruct (C49_every_line clock c line ws SO H) as [(r' & E')|[(b & ->)|[(o & S & C)|[(w & rest & -> & Q)|M]]]].
  - rewrite E' in A. now injection A as <-.
  - rewrite (C49_timer clock c line b H) in A. now injection A as <-.
  - rewrite (C49_executes clock c line ws o H S C) in A. destruct R as (files & ops & R). exists files, (ops ++ [o]).
    rewrite run_app, R. cbn [run]. destruct (step (c_api N c) o) as [s v|s [m|k|k]| |]; try discriminate A; now injection A as <-.
  - rewrite (C49_quit clock c line w rest H Q) in A. now injection A as <-.
  - destruct M as (x1 & x2 & x3 & x4 & i & j & k & l & -> & H1 & H2 & H3 & H4).
    rewrite (C49_match_without_end clock c line x1 x2 x3 x4 i j k l) in A by auto. discriminate.
Qed.
(** Whatever is typed, the session is one that API calls alone can reach, so that everything proved of reachable
    sessions holds in the program. *)
Theorem C49_session_reachable : forall files inputs c, stod_ok IO ->
  state_after N (cli_run N IO writable false (cli_init N files) inputs) = Some c -> reachable N IO writable (c_api N c).
Proof.
  intros files inputs c SO A.
  assert (R : reachable N IO writable (c_api N (cli_init N files))) by (exists files, []; reflexivity).
  revert A R. generalize false (cli_init N files). induction inputs as [|(clock, l) inputs IH]; intros ask c0 A R; cbn [cli_run] in A.
  - now injection A as <-.
  - destruct ask.
    + destruct l as [t|]; [|now injection A as <-]. destruct (_ || _); [now injection A as <-|eauto].
    + destruct l as [t|]; [|eauto]. destruct (main_line clock c0 t) as [c1 r|c1 r| |] eqn:E.
      * eapply IH; eauto. eapply line_reach; eauto. now rewrite E.
      * eapply line_reach; eauto. now rewrite E.
      * discriminate.
      * discriminate.
Qed.
(** The end of the input asks for confirmation: an empty line, y or another end of input end the program, n goes back to the
    prompt, anything else asks again; the state stays the same. *)
Theorem C49_end_of_input : forall c clock answers last rest,
  Forall (fun a => exists clk t, a = (clk, Some t) /\ ~ In t [[]; T_ "y"; T_ "n"]) answers ->
  (forall clk t, last = (clk, Some t) -> In t [[]; T_ "y"; T_ "n"]) ->
  cli_run N IO writable false c ((clock, None) :: answers ++ last :: rest) =
    match snd last with
    | Some t => if text_eqb t (T_ "n") then cli_run N IO writable false c rest else Ended N c (RNothing N)
    | None => Ended N c (RNothing N)
    end.
Proof.
  intros c clock answers (clk, l) rest HA HL. cbn [cli_run]. induction HA as [|a answers (clk' & t & -> & Ht) _ IH]; cbn [app cli_run snd].
  - destruct l as [t|]; auto. specialize (HL clk t eq_refl). cbn in HL. destruct HL as [<-|[<-|[<-|[]]]]; reflexivity.
  - cbn [In] in Ht. rewrite (text_eqb_neq t (T_ "y")), (text_eqb_neq t []), (text_eqb_neq t (T_ "n")) by (intros ->; apply Ht; auto). exact IH.
Qed.
End C49.

(** ** Concrete cases. *)
Definition demo_files : string -> option text := fun p =>
  if String.eqb p "f" then Some (T_ "0 0 1e200 1e200 0" ++ [nl] ++ T_ "0 0 0 0 0" ++ [nl]) else None.
Definition typed (l : list string) : list ((Z -> bool) * option text) := map (fun s => ((fun _ : Z => false), Some (T_ s))) l.
Definition demo (l : list string) : next F64 := cli_run F64 F64_IO (fun _ => true) false (cli_init F64 demo_files) (typed l).
Definition ends_with (n : next F64) (datasets : Z) (timer : bool) : bool :=
  match n with Ended _ c (RNothing _) => (st_count F64 (c_api F64 c) =? datasets) && Bool.eqb (c_timer F64 c) timer | _ => false end.
(** A session in which every kind of line occurs and that goes on until quit. *)
Example C49_case :
  words [T_ "paa"; T_ "0"; T_ "-1x"] (T_ " paa   0 -1x ") /\ int_word (T_ "-1x") (-1) /\
  ends_with (demo ["load f 0 0"; ""; "// group 0 1"; "frob"; "help"; "help x y"; "load"; "load nofile"; "group x 1"; "group 0 y"; "paa 0 -1x";
    "match 0 0 0"; "list dataset"; "timer off"; "save 7 g"; "quit now"; "load f"])%string 1 false = true.
Proof.
  split; [|split; [|vm_compute; reflexivity]].
  - change [T_ "paa"; T_ "0"; T_ "-1x"] with (tokens [sp] (T_ " paa   0 -1x ")). apply tokens_words.
  - exists [], (T_ "-1"), (T_ "x"). split; [reflexivity|]. split; [constructor|]. split; [|split; [|lia]].
    + exists true, (T_ "-"), (T_ "1"). repeat split; try discriminate. constructor; [unfold digit; cbn; lia|constructor].
    + intros c r E. injection E as <- <-. unfold digit. cbn. lia.
Qed.
(** The hypothesis on the conversion of numbers holds for the one that the program uses ([C37_stod_ok]). *)
Example C49_session_case : forall c, state_after F64 (demo ["load f"; "quit"])%string = Some c -> reachable F64 F64_IO (fun _ => true) (c_api F64 c).
Proof. intros c H. eapply C49_session_reachable; [apply C37_stod_ok|exact H]. Qed.
(** A user can reach undefined behaviour from the prompt: an infinite threshold (C24), and a match without an end. *)
Theorem C49_infinite_threshold_witness : demo ["load f"; "group 0 inf"]%string = Crash F64 Uninit.
Proof.
  assert (E : match demo ["load f"; "group 0 inf"]%string with Crash _ Uninit => true | _ => false end = true) by (vm_compute; reflexivity).
  destruct (demo _) as [| |u|]; try discriminate E. destruct u; try discriminate E. reflexivity.
Qed.
Theorem C49_match_without_end_witness : demo ["match 0 0 0 1"]%string = Crash F64 OutOfBounds.
Proof.
  assert (E : match demo ["match 0 0 0 1"]%string with Crash _ OutOfBounds => true | _ => false end = true) by (vm_compute; reflexivity).
  destruct (demo _) as [| |u|]; try discriminate E. destruct u; try discriminate E. reflexivity.
Qed.
