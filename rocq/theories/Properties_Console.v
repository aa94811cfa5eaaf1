(** * C64: what the console shows.

    [k_line] is what the program writes for one line (Console.v).  [typed files ins k out P]: after the inputs [ins] the program is at its
    prompt in the state [k], has written [out], and [P] says whether a timed command has succeeded while the timer was on.  [match_text],
    [time_text], [error_line], [refused] and [shown] are in ConsoleSpec.v; [words], [says] in CliSpec.v.  Stated for any arithmetic and number
    format, so in particular for doubles. *)
From Coq Require Import ZArith Bool Lia SpecFloat Ascii String List Reals Lra.
From Flocq Require Import Core BinarySingleNaN.
From Verif Require Import Outcome Num Lemire Distance TimeSeries Text Dataset Groups Api F64Base F64Laws Numeric DecSpec NumSpec FileSpec DecProofs LoadProofs StreamProofs PrintProofs.
From Verif Require Import Laws GroupSpec GlobalGroup SessionProofs ApiProofs LifeProofs Cli CliSpec CliProofs Properties_Groups Properties_Match Properties_Indep Properties_Api Properties_Data Properties_Load Properties_Cli Properties_Life.
From Verif Require Import Console ConsoleSpec ConsoleProofs ConsoleLines ConsoleRead ConsoleLog.
Import ListNotations.
Open Scope Z_scope.

Section C64.
Context (N : NumOps) (IO : NumIO N) (writable : string -> bool).
Local Notation con := (con N).
Local Notation kc := (k_cli N).
Local Notation step := (step N IO writable).
Local Notation typed := (typed N IO writable).
Local Notation k_line := (k_line N IO writable).

(** Without the text it is the program of C49. *)
Theorem C64_program : forall files ins,
  snd (k_run N IO writable false (con_init N files) ins) = cli_run N IO writable false (cli_init N files) (map (fun i => (e_clock (fst i), snd i)) ins).
Proof. intros files ins. exact (run_erase N IO writable ins false (con_init N files)). Qed.
(** [typed] is what [k_run] computes: the text [out] comes first, and the rest continues in [k]. *)
Theorem C64_typed_run : forall files ins k out P rest, typed files ins k out P ->
  k_run N IO writable false (con_init N files) (ins ++ rest) = (out ++ fst (k_run N IO writable false k rest), snd (k_run N IO writable false k rest)).
Proof. intros files ins k out P rest T. exact (typed_run N IO writable files ins k out P rest T). Qed.
Theorem C64_session : forall files ins k out P, stod_ok IO -> typed files ins k out P -> reachable N IO writable (c_api N (kc k)).
Proof.
  intros files ins k out P SO T. apply (C49_session_reachable N IO writable files (map (fun i => (e_clock (fst i), snd i)) ins) (kc k) SO).
  rewrite <- C64_program. pose proof (C64_typed_run _ _ _ _ _ [] T) as E. rewrite app_nil_r in E. rewrite E. reflexivity.
Qed.

(** Numbers are written with 6 digits until the first timed command that succeeds while the timer is on, and with 4 digits for ever after. *)
Theorem C64_digits : forall files ins k out P, stod_ok IO -> typed files ins k out P -> (P /\ k_prec N k = 4) \/ (~ P /\ k_prec N k = 6).
Proof. intros. eapply typed_digits; eauto. Qed.

(** A match writes the time, if the timer is on, and the line with the answer: the series, the first position and the length are those of the
    answer, lie within the dataset, and select the answer again; the distance is written with 4 digits if this is a timed command under the timer
    or there was one before, and with 6 otherwise. *)
Theorem C64_match : forall files ins k out P e line ws r q ix a b s c, stod_ok IO -> typed files ins k out P ->
  words ws line -> says N IO ws (OpMatch N r q ix a b) -> step (c_api N (kc k)) (OpMatch N r q ix a b) = Done N s (VCand N c) ->
  exists i st l p d,
    k_line e k line = ((if c_timer N (kc k) then time_text (e_elapsed e) else []) ++ match_text i st l (io_print IO p (cand_dist c)) ++ [nl], p,
                       Prompt N (mkCli N s (c_timer N (kc k))) (RAnswer N (VCand N c))) /\
    (P \/ c_timer N (kc k) = true -> p = 4) /\ (~ P -> c_timer N (kc k) = false -> p = 6) /\
    has_dataset N s r d /\ 0 <= i < set_count (ds_set N d) /\ 0 <= st /\ st + l <= set_len (ds_set N d) /\
    ts_index (cand_data c) = i /\ ts_start (cand_data c) = st /\ ts_len (cand_data c) = l /\
    (1 <= l -> getTimeSeries N (ds_set N d) i st (st + l) = Ok (cand_data c)).
Proof.
  intros files ins k out P e line ws r q ix a b s c SO T W S E. rewrite (says_line N IO writable e k line ws _ W S I). unfold op_said. rewrite E. cbn [timedb andb library app finish report].
  destruct (answer_buf N IO writable _ _ _ _ _ _ _ _ (C64_session _ _ _ _ _ SO T) E) as (_ & d & j & x & y & C & Et & _).
  exists (ts_index (cand_data c)), (ts_start (cand_data c)), (ts_len (cand_data c)), (if c_timer N (kc k) then 4 else k_prec N k), d.
  pose proof (C64_digits _ _ _ _ _ SO T) as Dg.
  split; [|split; [|split; [|split; [now apply has_check|]]]].
  - f_equal. f_equal. unfold show_match, match_text, time_text, endl. destruct (c_timer N (kc k)); cbn [app]; rewrite <- ?app_assoc; reflexivity.
  - intros H. destruct (c_timer N (kc k)); [reflexivity|]. destruct Dg as [(_ & Ep)|(Np & _)]; [exact Ep|]. destruct H as [H|H]; [contradiction|discriminate].
  - intros Np ->. destruct Dg as [(Yp & _)|(_ & Ep)]; [contradiction|exact Ep].
  - unfold getTimeSeries in *. destruct (Z.ltb_spec j 0) as [|J0]; [discriminate|]. destruct (Z.leb_spec (set_count (ds_set N d)) j) as [|J1]; [discriminate|]. cbn [orb] in Et.
    destruct ((x <? 0) && (y <? 0)).
    + injection Et as <-. cbn [ts_index ts_start ts_len]. repeat split; try lia. intros L.
      rewrite (proj2 (Z.ltb_ge j 0)), (proj2 (Z.leb_gt (set_count (ds_set N d)) j)) by lia. cbn [orb Z.ltb Z.compare andb Z.add].
      rewrite (proj2 (Z.leb_gt (set_len (ds_set N d)) 0)), (proj2 (Z.ltb_ge (set_len (ds_set N d)) (set_len (ds_set N d)))) by lia. cbn [orb]. now rewrite Z.sub_0_r.
    + destruct (Z.ltb_spec x 0) as [|X0]; [discriminate|]. destruct (Z.leb_spec y x) as [|Y0]; [discriminate|]. destruct (Z.ltb_spec (set_len (ds_set N d)) y) as [|Y1]; [discriminate|]. cbn [orb] in Et.
      injection Et as <-. cbn [ts_index ts_start ts_len]. repeat split; try lia. intros L. replace (x + (y - x)) with y by lia.
      rewrite (proj2 (Z.ltb_ge j 0)), (proj2 (Z.leb_gt (set_count (ds_set N d)) j)), (proj2 (Z.ltb_ge x 0)), (proj2 (Z.leb_gt y x)), (proj2 (Z.ltb_ge (set_len (ds_set N d)) y)) by lia.
      reflexivity.
Qed.
(** A command that succeeds writes: the log while it runs ([while_text]), the time, if it is a timed command and the timer is on, its answer
    ([answer_text]) and an empty line. *)
Theorem C64_done : forall e k line ws o s v, words ws line -> says N IO ws o -> at_clock N (e_clock e) o -> step (c_api N (kc k)) o = Done N s v ->
  exists log time answer p, k_line e k line = (log ++ time ++ answer ++ [nl], p, Prompt N (mkCli N s (c_timer N (kc k))) (RAnswer N v)) /\
    while_text N (c_api N (kc k)) o log /\ answer_text N IO p o v answer /\
    (timed_op N o /\ c_timer N (kc k) = true -> time = time_text (e_elapsed e) /\ p = 4) /\
    (~ (timed_op N o /\ c_timer N (kc k) = true) -> time = [] /\ p = k_prec N k).
Proof.
  intros e k line ws o s v W S C E. exists (library N IO (c_api N (kc k)) o), (if timedb N o && c_timer N (kc k) then time_text (e_elapsed e) else []),
    (report N IO (if timedb N o && c_timer N (kc k) then 4 else k_prec N k) o v), (if timedb N o && c_timer N (kc k) then 4 else k_prec N k).
  assert (B : timedb N o && c_timer N (kc k) = true <-> timed_op N o /\ c_timer N (kc k) = true).
  { rewrite andb_true_iff. enough (timedb N o = true <-> timed_op N o) by tauto. destruct o; cbn; intuition congruence. }
  split; [|split; [|split; [|split]]].
  - rewrite (says_line N IO writable e k line ws o W S C). unfold op_said. rewrite E. cbn [finish]. unfold time_text, endl. cbn zeta. now rewrite <- !app_assoc.
  - eapply library_while; eauto.
  - eapply answers_text; eauto.
  - intros H. apply B in H as ->. auto.
  - intros H. destruct (timedb N o && c_timer N (kc k)); [elim H; now apply B|auto].
Qed.
(** The log of one length has five to nine lines, and no percentage is above 100. *)
Theorem C64_log : forall total done, 5 <= total -> increasing done -> (forall c, In c done <-> 1 <= c <= total /\ (total / 5 | c)) ->
  5 <= zlen done <= 9 /\ (forall c, In c done -> 0 <= c * 100 / total <= 100).
Proof.
  intros total done H I M. split; [eapply fifths_number; eauto|]. intros c Hc. apply M in Hc as (R & _). split; [apply Z.div_pos; lia|]. apply Z.div_le_upper_bound; lia.
Qed.
Example C64_log_case : 5 <= 11 /\ increasing [2; 4; 6; 8; 10] /\ (forall c, In c [2; 4; 6; 8; 10] <-> 1 <= c <= 11 /\ (11 / 5 | c)) /\ 10 * 100 / 11 = 90.
Proof.
  split; [lia|]. split; [repeat (apply increasing_cons; [cbn; intros; lia|]); apply increasing_nil|]. split; [|reflexivity]. change (11 / 5) with 2. intros c. cbn [In]. split.
  - intros H. split; [lia|]. exists (c / 2). destruct H as [<-|[<-|[<-|[<-|[<-|[]]]]]]; reflexivity.
  - intros (R & (q & ->)). lia.
Qed.
(** A call that throws an OnexException: after the log the message of the exception is written; an exception of a conversion is reported as
    such; any other exception ends the program. *)
Theorem C64_thrown : forall e k line ws o s x, words ws line -> says N IO ws o -> at_clock N (e_clock e) o -> step (c_api N (kc k)) o = Exn N s x ->
  exists log, k_line e k line = (log ++ line_text [T_ "Error! "; T_ (match x with OnexExn m => m | LogicExn _ => "Cannot convert some value to numeric" | OtherExn _ => "Unknown error" end)] ++ [nl],
                                 k_prec N k, shows N (c_timer N (kc k)) (Exn N s x)) /\
    (~ timed_op N o -> (forall i f, o <> OpLoadGroup N i f) -> log = []).
Proof.
  intros e k line ws o s x W S C E. exists (library N IO (c_api N (kc k)) o). rewrite (says_line N IO writable e k line ws o W S C). unfold op_said. rewrite E. split.
  - unfold line_text. cbn [concat]. destruct x; cbn [finish shows]; unfold endl; rewrite ?app_nil_r, <- ?app_assoc; reflexivity.
  - intros Nt Nl. destruct o; try reflexivity; [elim Nt; exact I|elim (Nl i path); reflexivity].
Qed.
(** The timer: the text tells its state, which is the one that was asked for. *)
Theorem C64_timer : forall e k line (b : bool), words [T_ "timer"] line /\ b = c_timer N (kc k) \/ words [T_ "timer"; T_ (if b then "on" else "off")] line ->
  k_line e k line = (line_text [T_ (if b then "Timer is ON" else "Timer is OFF")] ++ [nl], k_prec N k, Prompt N (mkCli N (c_api N (kc k)) b) (RTimer N b)).
Proof.
  intros e k line b [(W & ->)|W]; apply words_tokens in W; unfold Console.k_line, k_processLine; rewrite W.
  - destruct k as [[a []] p]; reflexivity.
  - destruct b; reflexivity.
Qed.
(** Help: every command has a summary, which is in the list of all commands and at the beginning of its own help text. *)
Theorem C64_help : forall c lo hi, In (c, (lo, hi)) limits -> exists summary usage, summary <> [] /\ one_line summary /\
  (forall e k line, words [T_ "help"; T_ c] line -> k_line e k line = (line_text [summary] ++ usage ++ [nl; nl], k_prec N k, Prompt N (kc k) (RHelp N))) /\
  (forall e k line, words [T_ "help"] line -> exists all, k_line e k line = (all, k_prec N k, Prompt N (kc k) (RHelp N)) /\ has_line all (T_ c) summary).
Proof.
  intros c lo hi H. assert (Hh : exists h, lookup (T_ c) helps = Some h /\ ~ In (T_ c) [T_ "help"; T_ "exit"; T_ "quit"] /\ In (T_ c, h) helps /\ fst h <> [] /\ one_line (fst h)).
  { cbn [limits In] in H. repeat (destruct H as [H|H]; [injection H as <- _ _; eexists; split; [reflexivity|]; split; [intros [X|[X|[X|[]]]]; discriminate X|];
      split; [cbn [helps In]; tauto|]; split; [discriminate|apply literal_one_line; reflexivity]|]). destruct H. }
  destruct Hh as (h & L & Nh & Hi & Ne & O). exists (fst h), (snd h). split; [exact Ne|]. split; [exact O|]. split.
  - intros e k line W. apply words_tokens in W. unfold Console.k_line, k_processLine. rewrite W.
    change (nth 1 [T_ "help"; T_ c] []) with (T_ c). change (zlen [T_ "help"; T_ c]) with 2. change (starts_comment (T_ "help")) with false.
    change (text_eqb (T_ "help") (T_ "quit") || text_eqb (T_ "help") (T_ "exit")) with false. change (text_eqb (T_ "help") (T_ "help")) with true.
    unfold showHelp. cbn [In] in Nh. rewrite !text_eqb_neq by (intros X; apply Nh; rewrite X; tauto). rewrite L.
    unfold just, help_both, endl, line_text. cbn [concat orb Z.eqb Pos.eqb]. rewrite app_nil_r, <- !app_assoc. reflexivity.
  - intros e k line W. apply words_tokens in W. exists (showAllHelps ++ [nl]). split; [unfold Console.k_line, k_processLine; rewrite W; reflexivity|].
    unfold showAllHelps. apply in_split in Hi as (l1 & l2 & ->). rewrite flat_map_app. cbn [flat_map].
    match goal with |- context [flat_map ?g l1] => set (f := g) end.
    match goal with |- has_line ((?a1 ++ ?a2 ++ ?a3 ++ ?a4 ++ ?a5 ++ ?a6 ++ ?a7 ++ ?a8 ++ ?a9 ++ ?a10 ++ flat_map f l1 ++ ?x ++ ?b) ++ [nl]) _ _ =>
      exists ((a1 ++ a2 ++ a3 ++ a4 ++ a5 ++ a6 ++ a7 ++ a8 ++ a9 ++ a10) ++ flat_map f l1), (Z.to_nat (15 - zlen (T_ c))), (b ++ [nl]) end.
    split; [unfold pad, endl; cbn [fst snd]; rewrite <- !app_assoc; reflexivity|]. right.
    assert (Ef : forall a t, ends true a = true -> ends true (a ++ flat_map f t) = true).
    { intros a t. revert a. induction t as [|y t IH]; intros a Ha; cbn [flat_map]; [now rewrite app_nil_r|]. rewrite app_assoc. apply IH. unfold f, endl. rewrite !app_assoc. apply ends_nl. }
    match goal with |- exists p, ?t = _ => destruct (ends_last t) as [X|X]; [apply Ef; reflexivity|discriminate X|exact X] end.
Qed.
(** Equal lines report equal answers. *)
Theorem C64_match_read : forall i s l d i' s' l' d', match_text i s l d = match_text i' s' l' d' -> i = i' /\ s = s' /\ l = l' /\ d = d'.
Proof. exact match_text_inj. Qed.

(** A line of the output begins with "Error! " exactly if the program refused the line or the call threw. *)
Theorem C64_error : forall files ins k out P e line ws w p n r, stod_ok IO -> (forall p x, 1 <= p -> one_line (io_print IO p x)) ->
  typed files ins k out P -> one_line_inputs (ins ++ [(e, Some line)]) -> one_line (e_elapsed e) -> words ws line ->
  k_line e k line = (w, p, n) -> (exists c, n = Prompt N c r \/ n = Ended N c r) -> (error_line w <-> refused N ws r).
Proof.
  intros files ins k out P e line ws w p n r SO Pr T O Oe W E (c & Hn).
  assert (O1 : one_line line) by (apply (O e); apply in_or_app; cbn; auto).
  assert (O2 : one_line_inputs ins) by (intros e0 t Hi; apply (O e0); apply in_or_app; auto).
  refine (error_iff N IO writable e k line ws w p n r SO O1 Oe _ (typed_names N IO writable _ _ _ _ _ SO T O2) W E _).
  - intros x. split; [apply Pr; lia|]. apply Pr. destruct (C64_digits _ _ _ _ _ SO T) as [(_ & ->)|(_ & ->)]; lia.
  - destruct Hn as [->| ->]; reflexivity.
Qed.

(** The list of the datasets: the text determines the identifiers, names and flags of all of them, in any two sessions; nothing changes. *)
Theorem C64_list : forall e k line, words [T_ "list"; T_ "dataset"] line -> exists l w,
  step (c_api N (kc k)) (OpAllInfo N) = Done N (c_api N (kc k)) (VInfos N l) /\ k_line e k line = (w, k_prec N k, Prompt N (kc k) (RAnswer N (VInfos N l))) /\
  w = show_list l ++ [nl].
Proof.
  intros e k line W. destruct (C44_list N IO writable (c_api N (kc k))) as (l & E & _). exists l. eexists. split; [exact E|]. split; [|reflexivity].
  rewrite (says_line N IO writable e k line _ (OpAllInfo N) W (says_list N IO) I). unfold op_said. rewrite E. cbn [timedb andb library app finish report]. now destruct (kc k).
Qed.
Theorem C64_list_read : forall files ins k out P files' ins' k' out' P' e e' line line' w l c p w' l' c' p', stod_ok IO ->
  typed files ins k out P -> one_line_inputs ins -> typed files' ins' k' out' P' -> one_line_inputs ins' ->
  words [T_ "list"; T_ "dataset"] line -> words [T_ "list"; T_ "dataset"] line' ->
  k_line e k line = (w, p, Prompt N c (RAnswer N (VInfos N l))) -> k_line e' k' line' = (w', p', Prompt N c' (RAnswer N (VInfos N l'))) ->
  (w = w' <-> map shown l = map shown l').
Proof.
  intros files ins k out P files' ins' k' out' P' e e' line line' w l c p w' l' c' p' SO T O T' O' W W' E E'.
  destruct (C64_list e k line W) as (l0 & w0 & S0 & E0 & Ew). rewrite E in E0. injection E0 as E1 E2 E3 E4. subst w0 l0. subst w.
  destruct (C64_list e' k' line' W') as (l0 & w0 & S0' & E0 & Ew). rewrite E' in E0. injection E0 as E1' E2' E3' E4'. subst w0 l0. subst w'.
  assert (Nm : forall i, In i l \/ In i l' -> one_line (T_ (i_name i))).
  { intros i [Hi|Hi].
    - apply (typed_names N IO writable _ _ _ _ _ SO T O). exact (step_value_named N IO writable _ _ _ _ S0 i Hi).
    - apply (typed_names N IO writable _ _ _ _ _ SO T' O'). exact (step_value_named N IO writable _ _ _ _ S0' i Hi). }
  split.
  - intros H. apply app_inv_tail in H. now apply show_list_inj.
  - intros H. f_equal. unfold show_list. assert (L : zlen l = zlen l') by (unfold zlen; rewrite <- (map_length shown l), H, map_length; reflexivity). rewrite L. do 5 f_equal.
    clear - H. revert l' H. induction l as [|i l IH]; intros [|j l'] H; cbn [map] in H; try discriminate; auto. injection H as E1 E2 E3 E4 H. cbn [flat_map]. rewrite (IH _ H).
    unfold list_line. now rewrite E1, E2, E3, E4.
Qed.
End C64.

(** ** Doubles *)
Theorem C64_one_line_numbers : forall p x, 1 <= p -> one_line (io_print F64_IO p x).
Proof. exact print_g_one_line. Qed.
(** After a grouping (C25): the line of the match names a subsequence of the dataset, and the number is its warped distance to the query,
    rounded to 4 or 6 significant digits. *)
Theorem C64_match_values : forall writable files ins k out P e line ws thr t data r q ix a b qv, typed F64 F64_IO writable files ins k out P ->
  words ws line -> says F64 F64_IO ws (OpMatch F64 r q ix a b) -> ask64 F64_IO writable (c_api F64 (k_cli F64 k)) r thr t data q ix a b qv ->
  exists L y p dist text c v, k_line F64 F64_IO writable e k line = ((if c_timer F64 (k_cli F64 k) then time_text (e_elapsed e) else []) ++ match_text (fst y) (snd y) L text ++ [nl], p, Prompt F64 c (RAnswer F64 v)) /\
    2 <= L <= set_len t /\ is_sub (set_count t) (set_len t) L y /\
    dtw_is F64 (st_ratio F64 (c_api F64 (k_cli F64 k))) qv (sub_values F64 data (set_len t) L y) dist /\ Laws.lt F64 dist (ninf F64) /\
    (p = 4 \/ p = 6) /\ (fin64 dist -> exists m x, dec_text text (sign_SF dist) m x /\ dec_real (sign_SF dist) m x = round10 p (val dist)).
Proof.
  intros writable files ins k out P e line ws thr t data r q ix a b qv T W S A.
  destruct (C25_match_is_real _ _ _ _ _ _ _ _ _ _ _ _ A) as (s & c & E & L & y & Dn & Dt & Lt).
  destruct (C64_match F64 F64_IO writable _ _ _ _ _ e line ws r q ix a b s c C37_stod_ok T W S E) as (i & st & l & p & d & El & P1 & P2 & _ & _ & _ & _ & Hi & Hs & Hl & _).
  destruct Dn as (D1 & D2 & D3 & D4 & _ & D5 & _).
  assert (Hp : p = 4 \/ p = 6).
  { destruct (C64_digits F64 F64_IO writable _ _ _ _ _ C37_stod_ok T) as [(Yp & _)|(Np & _)]; [left; auto|]. destruct (c_timer F64 (k_cli F64 k)) eqn:Ti; [left; auto|right; auto]. }
  exists L, y, p, (cand_dist c), (io_print F64_IO p (cand_dist c)). eexists _, _. split; [rewrite El; replace i with (fst y) by congruence; replace st with (snd y) by congruence; replace l with L by congruence; reflexivity|].
  repeat (split; [assumption|]). intros F. destruct (print_g_spec p (cand_dist c) ltac:(lia) F) as (m & x & H1 & _ & H2). exists m, x. auto.
Qed.

(** ** Cases *)
Definition con_files : string -> option text := fun p =>
  if String.eqb p "f" then Some (T_ "1 2 4" ++ [nl] ++ T_ "2 1 0" ++ [nl] ++ T_ "1 3 3" ++ [nl])
  else if String.eqb p "q" then Some (T_ "1 0 0" ++ [nl]) else None.
Definition con_env : env := mkEnv (fun _ => false) (T_ "0.5").
Definition con_inputs (l : list string) : list (env * option text) := map (fun s => (con_env, Some (T_ s))) l.
Fixpoint con_after (k : con F64) (l : list string) : option (con F64) :=
  match l with
  | [] => Some k
  | s :: l => match k_line F64 F64_IO (fun _ => true) con_env k (T_ s) with (_, p, Prompt _ c _) => con_after (mkCon F64 c p) l | _ => None end
  end.
Lemma con_typed l : forall files ins k out P k', typed F64 F64_IO (fun _ => true) files ins k out P -> con_after k l = Some k' ->
  exists out' P', typed F64 F64_IO (fun _ => true) files (ins ++ con_inputs l) k' out' P'.
Proof.
  induction l as [|s l IH]; intros files ins k out P k' T E; cbn [con_after con_inputs map] in *.
  - injection E as <-. rewrite app_nil_r. eauto.
  - destruct (k_line F64 F64_IO (fun _ => true) con_env k (T_ s)) as ((w, p), n) eqn:El. destruct n as [c r| | |]; try discriminate.
    destruct (IH files (ins ++ [(con_env, Some (T_ s))]) (mkCon F64 c p) _ _ k' (typed_line F64 F64_IO _ _ _ _ _ _ _ _ _ _ _ _ T El) E) as (out' & P' & T').
    exists out', P'. now rewrite <- app_assoc in T'.
Qed.
Definition con_text (l : list string) : string := string_of_list_ascii (fst (k_run F64 F64_IO (fun _ => true) false (con_init F64 con_files) (con_inputs l))).
Definition con_before : list string := ["load f"; "load q"; "timer off"; "group 0 0.5"]%string.
Definition con_before_timed : list string := ["load f"; "load q"; "timer on"; "group 0 0.5"; "timer off"]%string.
(** What is on the screen. *)
Example C64_case : con_text (con_before ++ ["match 0 1 0"; "list dataset"; "frob"]%string) =
"Dataset loaded                         
  Name:        f
  ID:          0
  Item count:  3
  Item length: 3

Dataset loaded                         
  Name:        q
  ID:          1
  Item count:  1
  Item length: 3

Timer is OFF

Processing time series space of length 2
  Grouping progress... 1/6 (16%)
  Grouping progress... 2/6 (33%)
  Grouping progress... 3/6 (50%)
  Grouping progress... 4/6 (66%)
  Grouping progress... 5/6 (83%)
  Grouping progress... 6/6 (100%)
Dataset 0 is now grouped
Number of Groups: 9

Best Match is timeseries 1 starting at 0 with length 3. Distance = 0.235702

There are 2 loaded datasets

  0    f	          	Grouped   
  1    q	          	          

Error! Cannot find command: frob

"%string.
Proof. vm_compute. reflexivity. Qed.
(** The states of both sessions below are [typed]; their inputs are one line each. *)
Lemma con_inputs_one_line l : forallb (fun s => negb (existsb (fun c => Ascii.eqb c nl) (T_ s))) l = true -> one_line_inputs (con_inputs l).
Proof.
  intros H e t Hi. unfold con_inputs in Hi. apply in_map_iff in Hi as (s & E & Hs). injection E as _ <-. rewrite forallb_forall in H. specialize (H s Hs). apply literal_one_line.
  now destruct (existsb _ (T_ s)).
Qed.
Definition same_answer (n n' : next F64) : bool :=
  match n, n' with
  | Prompt _ _ (RAnswer _ (VCand _ c)), Prompt _ _ (RAnswer _ (VCand _ c')) =>
      (ts_index (cand_data c) =? ts_index (cand_data c')) && (ts_start (cand_data c) =? ts_start (cand_data c')) && (ts_len (cand_data c) =? ts_len (cand_data c')) &&
      SFeqb (cand_dist c) (cand_dist c')
  | _, _ => false
  end.
(** The same command with the same answer and the timer off in both sessions: 0.235702 in one, 0.2357 in the other, in which the grouping was
    timed. *)
Theorem C64_other_digits_witness : exists k out P k' out' P' w p n w' p' n',
  typed F64 F64_IO (fun _ => true) con_files (con_inputs con_before) k out P /\ one_line_inputs (con_inputs con_before) /\
  typed F64 F64_IO (fun _ => true) con_files (con_inputs con_before_timed) k' out' P' /\ one_line_inputs (con_inputs con_before_timed) /\
  c_timer F64 (k_cli F64 k) = false /\ c_timer F64 (k_cli F64 k') = false /\
  k_line F64 F64_IO (fun _ => true) con_env k (T_ "match 0 1 0") = (w, p, n) /\ k_line F64 F64_IO (fun _ => true) con_env k' (T_ "match 0 1 0") = (w', p', n') /\
  same_answer n n' = true /\ w = match_text 1 0 3 (T_ "0.235702") ++ [nl] /\ w' = match_text 1 0 3 (T_ "0.2357") ++ [nl].
Proof.
  assert (H : match con_after (con_init F64 con_files) con_before, con_after (con_init F64 con_files) con_before_timed with
    | Some k, Some k' => negb (c_timer F64 (k_cli F64 k)) && negb (c_timer F64 (k_cli F64 k')) &&
       (let '(w, p, n) := k_line F64 F64_IO (fun _ => true) con_env k (T_ "match 0 1 0") in
        let '(w', p', n') := k_line F64 F64_IO (fun _ => true) con_env k' (T_ "match 0 1 0") in
        same_answer n n' && text_eqb w (match_text 1 0 3 (T_ "0.235702") ++ [nl]) && text_eqb w' (match_text 1 0 3 (T_ "0.2357") ++ [nl]))
    | _, _ => false end = true) by (vm_compute; reflexivity).
  destruct (con_after (con_init F64 con_files) con_before) as [k|] eqn:E; [|discriminate H].
  destruct (con_after (con_init F64 con_files) con_before_timed) as [k'|] eqn:E'; [|discriminate H].
  destruct (con_typed _ _ _ _ _ _ _ (typed_nothing F64 F64_IO _ con_files) E) as (out & P & T). destruct (con_typed _ _ _ _ _ _ _ (typed_nothing F64 F64_IO _ con_files) E') as (out' & P' & T').
  apply andb_prop in H as (H1 & H2). apply andb_prop in H1 as (H0 & H1).
  destruct (k_line F64 F64_IO (fun _ => true) con_env k (T_ "match 0 1 0")) as ((w, p), n) eqn:El. destruct (k_line F64 F64_IO (fun _ => true) con_env k' (T_ "match 0 1 0")) as ((w', p'), n') eqn:El'.
  apply andb_prop in H2 as (H2 & H4). apply andb_prop in H2 as (H2 & H3). apply text_eqb_iff in H3, H4.
  exists k, out, P, k', out', P', w, p, n, w', p', n'. split; [exact T|]. split; [apply con_inputs_one_line; reflexivity|]. split; [exact T'|]. split; [apply con_inputs_one_line; reflexivity|].
  split; [now apply negb_true_iff in H0|]. split; [now apply negb_true_iff in H1|]. split; [exact El|]. split; [exact El'|]. auto.
Qed.
(** A call that throws. *)
Example C64_thrown_case : con_text ["unload 5"; "timer on"; "load nofile"]%string = "Error! There is no dataset with given index

Timer is ON

Error! Cannot open nofile

"%string.
Proof. vm_compute. reflexivity. Qed.
(** The hypotheses of [C64_error]: a session, a line that is refused and one that is not. *)
Example C64_error_case : forall k out P, typed F64 F64_IO (fun _ => true) con_files (con_inputs con_before) k out P ->
  stod_ok F64_IO /\ (forall p x, 1 <= p -> one_line (io_print F64_IO p x)) /\ one_line_inputs (con_inputs con_before ++ [(con_env, Some (T_ "help frob"))]) /\ one_line (e_elapsed con_env) /\
  k_line F64 F64_IO (fun _ => true) con_env k (T_ "help frob") = (T_ "Error! Cannot find help for command: frob" ++ [nl; nl], k_prec F64 k, Prompt F64 (k_cli F64 k) (RHelp F64)).
Proof.
  intros k out P T. split; [exact C37_stod_ok|]. split; [exact C64_one_line_numbers|]. split; [apply (con_inputs_one_line (con_before ++ ["help frob"]%string)); reflexivity|].
  split; [apply literal_one_line; reflexivity|]. reflexivity.
Qed.

Definition val_files : string -> option text := fun p => if String.eqb p "ex" then Some (T_ "0 1 2" ++ [nl] ++ T_ "0 1 3" ++ [nl] ++ T_ "5 5 5" ++ [nl]) else None.
Definition val_data (o : option (con F64)) : list spec_float :=
  match o with Some k => match heap_get F64 (st_heap F64 (c_api F64 (k_cli F64 k))) 0 with Ok l => l | _ => [] end | None => [] end.
Definition val_set (o : option (con F64)) : bool :=
  match o with
  | Some k => match checkDatasetIndex F64 (c_api F64 (k_cli F64 k)) 0 with
      | Ok d => match set_buf (ds_set F64 d) with Some O => (set_len (ds_set F64 d) =? 3) && (set_count (ds_set F64 d) =? 3) | _ => false end
      | _ => false end
  | None => false
  end.
Definition val_ratio : spec_float := ndiv F64 (nofZ F64 1) (nofZ F64 10).
Lemma val_ratio_ok : ratio_ok64 val_ratio 3.
Proof.
  assert (F : fin64 val_ratio) by (apply fin64b_spec; vm_compute; reflexivity). destruct (ofZ_exact 1) as (F1 & V1); [lia|].
  assert (K : SFltb val_ratio (f64_ofZ 1) = true) by (vm_compute; reflexivity). apply ltb_true in K; [|now apply fin_ok..]. rewrite V1 in K.
  assert (P : (0 <= val val_ratio)%R) by (apply (proj1 (ltb_false val_ratio (S754_zero false) (fin_ok _ F) (fin_ok _ (fin64b_spec (S754_zero false) eq_refl)))); vm_compute; reflexivity).
  split; auto. split; auto. unfold int_max. lra.
Qed.
Definition same_finite (x y : spec_float) : bool :=
  match x, y with S754_finite s m e, S754_finite s' m' e' => Bool.eqb s s' && Pos.eqb m m' && (e =? e') | _, _ => false end.
Lemma same_finite_eq x y : same_finite x y = true -> x = y.
Proof.
  destruct x, y; try discriminate. cbn. intros H. apply andb_prop in H as (H & H3). apply andb_prop in H as (H1 & H2).
  apply Bool.eqb_prop in H1. apply Pos.eqb_eq in H2. apply Z.eqb_eq in H3. now subst.
Qed.
Definition val_answer (o : option (con F64)) : bool :=
  match o with
  | Some k => match k_line F64 F64_IO (fun _ => true) con_env k (T_ "group 0 1") with (_, _, Prompt _ c (RAnswer _ _)) => same_finite (st_ratio F64 (c_api F64 c)) val_ratio | _ => false end
  | None => false
  end.
Lemma con_after_app l l' : forall k, con_after k (l ++ l') = match con_after k l with Some k' => con_after k' l' | None => None end.
Proof. induction l as [|s l IH]; intros k; cbn [app con_after]; auto. destruct (k_line _ _ _ _ _ _) as ((w, p), n). destruct n; auto. Qed.
(** The hypotheses of [C64_match_values]: a session in which a dataset was loaded and grouped. *)
Example C64_match_values_case : exists k out P t, typed F64 F64_IO (fun _ => true) val_files (con_inputs ["load ex"; "group 0 1"]%string) k out P /\
  words [T_ "match"; T_ "0"; T_ "0"; T_ "1"; T_ "1"; T_ "3"] (T_ "match 0 0 1 1 3") /\
  says F64 F64_IO [T_ "match"; T_ "0"; T_ "0"; T_ "1"; T_ "1"; T_ "3"] (OpMatch F64 0 0 1 1 3) /\
  ask64 F64_IO (fun _ => true) (c_api F64 (k_cli F64 k)) 0 (f64_ofZ 1) t (map f64_ofZ ex_ints) 0 1 1 3 (map f64_ofZ [1; 3]).
Proof.
  assert (H0 : val_data (con_after (con_init F64 val_files) ["load ex"]%string) = map f64_ofZ ex_ints) by (vm_compute; reflexivity).
  assert (H1 : val_set (con_after (con_init F64 val_files) ["load ex"]%string) = true) by (vm_compute; reflexivity).
  assert (H3 : val_answer (con_after (con_init F64 val_files) ["load ex"]%string) = true) by (vm_compute; reflexivity).
  assert (H2 : match con_after (con_init F64 val_files) (["load ex"]%string ++ ["group 0 1"]%string) with Some _ => true | None => false end = true) by (vm_compute; reflexivity).
  rewrite con_after_app in H2. destruct (con_after (con_init F64 val_files) ["load ex"]%string) as [k0|] eqn:E0; [|discriminate H1].
  destruct (con_typed _ _ _ _ _ _ _ (typed_nothing F64 F64_IO _ val_files) E0) as (out0 & P0 & T0). cbn [app] in T0.
  destruct (con_after k0 ["group 0 1"]%string) as [k|] eqn:E1; [|discriminate H2]. destruct (con_typed _ _ _ _ _ _ _ T0 E1) as (out & P & T).
  pose proof (C64_session F64 F64_IO _ _ _ _ _ _ C37_stod_ok T0) as R0. pose proof (C45_reachable F64 F64_IO _ _ R0) as W0.
  assert (Iw : forall w z, stoi w = Ok z -> int_word w z) by (intros w z; apply stoi_iff).
  assert (Sg : says F64 F64_IO [T_ "group"; T_ "0"; T_ "1"] (OpGroup F64 0 (f64_ofZ 1) (fun _ => false))) by (apply says_group; [apply Iw; reflexivity|vm_compute; reflexivity]).
  assert (Wg : words [T_ "group"; T_ "0"; T_ "1"] (T_ "group 0 1")) by (change [T_ "group"; T_ "0"; T_ "1"] with (tokens [sp] (T_ "group 0 1")); apply tokens_words).
  cbn [con_after] in E1. cbn [val_answer] in H3. rewrite (says_line F64 F64_IO _ con_env k0 (T_ "group 0 1") [T_ "group"; T_ "0"; T_ "1"] _ Wg Sg eq_refl) in E1, H3.
  assert (D0 : exists d, dataset F64 (c_api F64 (k_cli F64 k0)) 0 d (map f64_ofZ ex_ints) /\ set_len (ds_set F64 d) = 3 /\ set_count (ds_set F64 d) = 3).
  { clear - H0 H1. cbn [val_data val_set] in H0, H1. destruct (checkDatasetIndex F64 (c_api F64 (k_cli F64 k0)) 0) as [d| | |] eqn:C; try discriminate H1.
    destruct (set_buf (ds_set F64 d)) as [[|b]|] eqn:B; try discriminate H1. apply andb_prop in H1 as (L1 & L2). apply Z.eqb_eq in L1, L2.
    destruct (heap_get F64 (st_heap F64 (c_api F64 (k_cli F64 k0))) 0) as [l| | |] eqn:Hg; try discriminate H0. exists d. split; [|auto]. split; [exact C|]. exists 0%nat. subst l. rewrite B, L1, L2. repeat split; auto; try lia.
    unfold zlen. rewrite map_length. cbn. lia. }
  destruct D0 as (d & D0 & L1 & L2).
  unfold op_said in E1, H3. destruct (step F64 F64_IO (fun _ => true) (c_api F64 (k_cli F64 k0)) (OpGroup F64 0 (f64_ofZ 1) (fun _ => false))) as [s v|s x|u|] eqn:Es; cbn [finish] in E1, H3.

  2: { exfalso. destruct x; discriminate H3. }
  2, 3: discriminate E1.
  assert (Ek : k_cli F64 k = mkCli F64 s (c_timer F64 (k_cli F64 k0))) by (injection E1 as <-; reflexivity). clear E1. cbn [c_api] in H3.
  cbn [Api.step] in Es.
  assert (Gr : exists n gs, grouped F64 (c_api F64 (k_cli F64 k0)) 0 (f64_ofZ 1) s n gs).
  { pose proof Es as Es'. unfold api_group in Es'. apply lift_done in Es' as (d1 & C1 & Es'). destruct (negb _) in Es'; [discriminate|].
    destruct (global_group F64 _ _ _ _ _ _) as [(gs & n)|x| |] in Es'; try discriminate. injection Es' as Es' Ev. exists n, gs, (fun _ => false), (mkDS F64 (ds_set F64 d1) (Some gs) (Some (f64_ofZ 1))). split; [rewrite Es, Ev; reflexivity|].
    subst s. apply check_inv in C1 as (Hr & C1). split; [|reflexivity]. destruct (2 <=? _); apply check_put; exact Hr. }
  destruct Gr as (n & gs & Gr). destruct (api_group_inv F64 _ _ _ _ _ _ _ _ Gr D0) as (Hh & C & _).
  exists k, out, P, (ds_set F64 d). split; [exact T|]. split; [|split; [|split; [|split; [|split; [|split; [|split; [|split; [|split]]]]]]]].
  - change [T_ "match"; T_ "0"; T_ "0"; T_ "1"; T_ "1"; T_ "3"] with (tokens [sp] (T_ "match 0 0 1 1 3")). apply tokens_words.
  - apply says_match_part; apply Iw; reflexivity.
  - rewrite Ek. cbn [c_api]. exists (c_api F64 (k_cli F64 k0)), d, s, n, gs, []. repeat (split; [assumption || reflexivity|]). split; [constructor|reflexivity].
  - vm_compute. reflexivity.
  - now apply small64_Zs.
  - now apply small64_Zs.
  - rewrite L1. lia.
  - rewrite L2. lia.
  - rewrite Ek, L1. cbn [c_api]. rewrite (same_finite_eq _ _ H3). exact val_ratio_ok.
  - split; [|unfold zlen; cbn; lia]. rewrite Ek. cbn [c_api]. exists (mkDS F64 (ds_set F64 d) (Some gs) (Some (f64_ofZ 1))), (map f64_ofZ ex_ints). split.
    + split; [exact C|]. destruct D0 as (_ & b & B & Hg & X). exists b. cbn [ds_set]. rewrite Hh. auto.
    + cbn [ds_set]. rewrite L1, L2. split; [lia|]. right. split; [lia|]. split; [lia|]. reflexivity.
Qed.
