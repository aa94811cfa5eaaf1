(** * Property C67: the 32-bit integers of the program.

    Ints.v models the operations with every size-dependent [int] expression checked: [step32] is [step] in
    which an expression that does not fit 32 bits is undefined behaviour ([Bad IntOverflow]).  C67 is about
    loading and grouping; whole sessions, with matching and group files, are in C68 (Properties_Ints2.v). *)
From Coq Require Import ZArith Bool Lia SpecFloat String Permutation Ascii List.
From Verif Require Import Outcome Num Lemire Distance TimeSeries Text Dataset Groups Api Laws F64Base F64Laws.
From Verif Require Import GroupSpec GroupProofs GlobalGroup Properties_Groups Ints IntsProofs.
Import ListNotations.
Open Scope Z_scope.

(** ** One call: the checked program does what the unbounded model says, or it overflows. *)
Theorem C67_same_or_overflow : forall writable (σ : st F64) (o : op F64),
  step32 F64 F64_IO writable σ o = step F64 F64_IO writable σ o \/ step32 F64 F64_IO writable σ o = Bad F64 IntOverflow.
Proof. intros. apply step_le. Qed.

(** ** Loading: rows times columns of the first line decides. *)

(** The rows that are read and the columns of the first line. *)
Definition rows_read (contents : text) (maxRows : Z) : Z :=
  if maxRows <=? 0 then zlen (lines contents) else Z.min maxRows (zlen (lines contents)).
Definition first_columns (contents seps : text) : Z :=
  match lines contents with [] => 0 | l :: _ => zlen (tokens seps l) end.

Theorem C67_load_in_range : forall writable (σ : st F64) path maxRows startCol seps contents,
  st_files F64 σ path = Some contents -> 0 <= startCol <= 2147483647 ->
  zlen (lines contents) <= 2147483647 -> first_columns contents seps <= 2147483647 ->
  rows_read contents maxRows * first_columns contents seps <= 2147483647 ->
  step32 F64 F64_IO writable σ (OpLoad F64 path maxRows startCol seps) = step F64 F64_IO writable σ (OpLoad F64 path maxRows startCol seps).
Proof.
  intros writable σ path m c seps contents E H1 H2 H3 H4. cbn [step32 step]. unfold api_load32, api_load. rewrite E.
  rewrite loadData32_in; auto.
Qed.
Theorem C67_load_overflows : forall writable (σ : st F64) path maxRows startCol seps contents,
  st_files F64 σ path = Some contents ->
  2147483647 < rows_read contents maxRows * first_columns contents seps ->
  step32 F64 F64_IO writable σ (OpLoad F64 path maxRows startCol seps) = Bad F64 IntOverflow.
Proof.
  intros writable σ path m c seps contents E H. cbn [step32]. unfold api_load32. rewrite E. rewrite loadData32_out; auto.
Qed.

(** A file of 150000 characters is enough: one line of 50000 columns and 49999 empty lines. *)
Fixpoint ones (k : nat) : text := match k with O => [] | S k' => "1"%char :: ","%char :: ones k' end.
Definition wide_file (k m : nat) : text := ones k ++ repeat nl m.
Lemma ones_len k : zlen (ones k) = 2 * Z.of_nat k.
Proof. induction k as [|k IH]; [reflexivity|]. cbn [ones]. rewrite !zlen_cons, IH. lia. Qed.
Lemma ones_tokens k : zlen (tokens [","%char] (ones k)) = Z.of_nat k.
Proof.
  unfold tokens. induction k as [|k IH]; [reflexivity|]. cbn [ones].
  change (tokens_aux [","%char] [] ("1"%char :: ","%char :: ones k)) with (["1"%char] :: tokens_aux [","%char] [] (ones k)). rewrite zlen_cons, IH. lia.
Qed.
Lemma ones_lines k t : forall cur, lines_aux cur (ones k ++ nl :: t) = (rev cur ++ ones k) :: lines_aux [] t.
Proof.
  induction k as [|k IH]; intros cur; [cbn [ones app]; rewrite app_nil_r; reflexivity|].
  cbn [ones app]. change (lines_aux cur ("1"%char :: ","%char :: ones k ++ nl :: t)) with (lines_aux (","%char :: "1"%char :: cur) (ones k ++ nl :: t)).
  rewrite IH. cbn [rev]. rewrite <- !app_assoc. reflexivity.
Qed.
Lemma empty_lines m : lines_aux [] (repeat nl m) = repeat [] m.
Proof. induction m as [|m IH]; [reflexivity|]. cbn [repeat]. change (lines_aux [] (nl :: repeat nl m)) with (@nil ascii :: lines_aux [] (repeat nl m)). now rewrite IH. Qed.

Theorem C67_load_witness : exists contents, zlen contents = 150000 /\
  forall writable (σ : st F64) path, st_files F64 σ path = Some contents ->
    step32 F64 F64_IO writable σ (OpLoad F64 path 0 0 [","%char]) = Bad F64 IntOverflow.
Proof.
  set (k := Z.to_nat 50000). exists (wide_file k (S (Z.to_nat 49999))).
  assert (K : Z.of_nat k = 50000) by (unfold k; lia). clearbody k.
  set (m := Z.to_nat 49999). assert (M : Z.of_nat m = 49999) by (unfold m; lia). clearbody m.
  assert (L : lines (wide_file k (S m)) = ones k :: repeat [] m).
  { unfold lines, wide_file. cbn [repeat]. rewrite ones_lines, empty_lines. reflexivity. }
  split.
  - unfold wide_file, zlen. rewrite app_length, repeat_length. pose proof (ones_len k) as O. unfold zlen in O. lia.
  - intros writable σ path E. eapply C67_load_overflows; [exact E|].
    unfold rows_read, first_columns. rewrite L. rewrite ones_tokens, zlen_cons. unfold zlen. rewrite repeat_length. cbn [Z.leb Z.compare]. lia.
Qed.

(** The smallest file that overflows has 131071 characters: every shorter file fits, whatever the separators, and
    this one does not (a line of 32768 columns and 65535 empty lines). *)
Lemma tokens_bound seps t : forall cur, 2 * zlen (tokens_aux seps cur t) <= zlen t + match cur with [] => 1 | _ => 2 end.
Proof.
  induction t as [|c t IH]; intros cur; cbn [tokens_aux]; [destruct cur; cbn; lia|]. rewrite zlen_cons. destruct (mem_ascii c seps).
  - specialize (IH []). cbn iota in IH. destruct cur; [lia|]. rewrite zlen_cons. lia.
  - specialize (IH (c :: cur)). cbn iota in IH. destruct cur; lia.
Qed.
Lemma lines_count t : forall cur, zlen (lines_aux cur t) <= zlen t + match cur with [] => 0 | _ => 1 end.
Proof.
  induction t as [|c t IH]; intros cur; cbn [lines_aux]; [destruct cur; cbn; lia|]. rewrite zlen_cons. destruct (Ascii.eqb c nl).
  - rewrite zlen_cons. specialize (IH []). cbn iota in IH. destruct cur; lia.
  - specialize (IH (c :: cur)). cbn iota in IH. destruct cur; lia.
Qed.
Lemma zlen_rev {A} (l : list A) : zlen (rev l) = zlen l.
Proof. unfold zlen. now rewrite rev_length. Qed.
Lemma first_line t : forall cur l rest, lines_aux cur t = l :: rest -> zlen l + zlen rest + match rest with [] => 0 | _ => 1 end <= zlen cur + zlen t.
Proof.
  induction t as [|c t IH]; intros cur l rest E; cbn [lines_aux] in E.
  - destruct cur as [|x cur]; [discriminate|]. injection E as <- <-. change (rev cur ++ [x]) with (rev (x :: cur)). rewrite zlen_rev. cbn. lia.
  - rewrite zlen_cons. destruct (Ascii.eqb c nl).
    + injection E as <- <-. rewrite zlen_rev. pose proof (lines_count t []) as B. cbn iota in B. destruct (lines_aux [] t); [cbn; pose proof (zlen_nonneg t); lia|lia].
    + specialize (IH _ _ _ E). rewrite zlen_cons in IH. lia.
Qed.
Lemma small_table contents seps maxRows : zlen contents <= 131070 ->
  zlen (lines contents) <= 2147483647 /\ first_columns contents seps <= 2147483647 /\ rows_read contents maxRows * first_columns contents seps <= 2147483647.
Proof.
  intros H. pose proof (lines_count contents []) as B. cbn iota in B. change (lines_aux [] contents) with (lines contents) in B.
  assert (C : 0 <= first_columns contents seps /\ first_columns contents seps <= 65536 /\
    (zlen (lines contents) <= 1 \/ 2 * first_columns contents seps + zlen (lines contents) <= 131071)).
  { unfold first_columns. destruct (lines contents) as [|l rest] eqn:E; [cbn; lia|]. pose proof (first_line contents [] l rest E) as F.
    pose proof (tokens_bound seps l []) as T. cbn iota in T. change (tokens_aux seps [] l) with (tokens seps l) in T. pose proof (zlen_nonneg (tokens seps l)). pose proof (zlen_nonneg rest).
    rewrite zlen_cons. change (zlen (@nil ascii)) with 0 in F. destruct rest; [change (zlen (@nil text)) with 0 in *; lia|]. lia. }
  split; [lia|]. split; [lia|]. pose proof (zlen_nonneg (lines contents)).
  assert (R : rows_read contents maxRows <= zlen (lines contents)) by (unfold rows_read; destruct (_ <=? 0); lia).
  destruct C as (C0 & C1 & C2). set (c := first_columns contents seps) in *. set (n := zlen (lines contents)) in *.
  assert (n * c <= 2147483647); [|nia]. destruct C2; [nia|].
  assert (0 <= (2 * c - n) * (2 * c - n)) by apply Z.square_nonneg. assert ((2 * c + n) * (2 * c + n) <= 131071 * 131071) by (apply Z.mul_le_mono_nonneg; lia). lia.
Qed.
Theorem C67_load_small : forall writable (σ : st F64) path maxRows startCol seps contents,
  st_files F64 σ path = Some contents -> zlen contents <= 131070 -> 0 <= startCol <= 2147483647 ->
  step32 F64 F64_IO writable σ (OpLoad F64 path maxRows startCol seps) = step F64 F64_IO writable σ (OpLoad F64 path maxRows startCol seps).
Proof. intros. destruct (small_table contents seps maxRows) as (A & B & C); auto. eapply C67_load_in_range; eauto. Qed.
Theorem C67_load_smallest : exists contents, zlen contents = 131071 /\
  forall writable (σ : st F64) path, st_files F64 σ path = Some contents ->
    step32 F64 F64_IO writable σ (OpLoad F64 path 0 0 [","%char]) = Bad F64 IntOverflow.
Proof.
  set (k := Z.to_nat 32767). assert (K : Z.of_nat k = 32767) by (unfold k; lia). clearbody k.
  set (m := Z.to_nat 65535). assert (M : Z.of_nat m = 65535) by (unfold m; lia). clearbody m.
  exists (ones k ++ "1"%char :: nl :: repeat nl m).
  assert (G : forall j t cur, lines_aux cur (ones j ++ "1"%char :: nl :: t) = (rev cur ++ ones j ++ ["1"%char]) :: lines_aux [] t).
  { induction j as [|j IH]; intros t cur; [reflexivity|]. cbn [ones app].
    change (lines_aux cur ("1"%char :: ","%char :: ones j ++ "1"%char :: nl :: t)) with (lines_aux (","%char :: "1"%char :: cur) (ones j ++ "1"%char :: nl :: t)).
    rewrite IH. cbn [rev]. rewrite <- !app_assoc. reflexivity. }
  assert (T : forall j, zlen (tokens [","%char] (ones j ++ ["1"%char])) = Z.of_nat j + 1).
  { unfold tokens. induction j as [|j IH]; [reflexivity|]. cbn [ones app].
    change (tokens_aux [","%char] [] ("1"%char :: ","%char :: ones j ++ ["1"%char])) with (["1"%char] :: tokens_aux [","%char] [] (ones j ++ ["1"%char])). rewrite zlen_cons, IH. lia. }
  split.
  - unfold zlen. rewrite app_length. cbn [Datatypes.length]. rewrite repeat_length. pose proof (ones_len k) as O. unfold zlen in O. lia.
  - intros writable σ path E. eapply C67_load_overflows; [exact E|].
    unfold rows_read, first_columns, lines. rewrite G, empty_lines. cbn [rev app]. rewrite T, zlen_cons. unfold zlen. rewrite repeat_length. cbn [Z.leb Z.compare]. lia.
Qed.

(** ** After loading: a dataset loaded from a column that is not negative never overflows when it is
    saved, normalized or reduced, in any later state of the session. *)
Definition from_column0 (o : op F64) : Prop := match o with OpLoad _ _ _ c _ => 0 <= c | _ => True end.
Theorem C67_after_loading : forall writable files l (σ : st F64) i d,
  Forall from_column0 l -> run32 F64 F64_IO writable (st_init F64 files) l = Some σ ->
  checkDatasetIndex F64 σ i = Ok d -> 0 <= set_len (ds_set F64 d) ->
  0 <= set_count (ds_set F64 d) * set_len (ds_set F64 d) <= 2147483647 /\
  forall o, (exists path sep, o = OpSave F64 i path sep) \/ o = OpNormalize F64 i \/ (exists n, o = OpPAA F64 i n) ->
    step32 F64 F64_IO writable σ o = step F64 F64_IO writable σ o.
Proof.
  intros writable files l σ i d HF HR HD HL.
  assert (A : all_sized F64 σ) by (eapply run32_sized; [| |exact HR]; [constructor|exact HF]).
  pose proof (check_sized F64 _ _ _ A HD) as S. split.
  - destruct S as ((S1 & _) & _ & S2). specialize (S2 HL). unfold int_max in S2. nia.
  - intros o [(path & sep & ->)|[->|(n & ->)]]; cbn [step32 step].
    + unfold api_save32, api_save. rewrite HD. cbn [lift]. destruct (negb _); auto. rewrite saveData32_in; auto.
    + unfold api_normalize32, api_normalize. rewrite HD. cbn [lift]. rewrite normalize32_in; auto.
    + unfold api_PAA32, api_PAA. rewrite HD. cbn [lift]. rewrite PAA32_in; auto.
Qed.

(** ** Grouping *)

(** The progress messages of one length: [t] subsequences, a message whenever the counter is a multiple of [t/5]; the
    last one is at this count. *)
Definition last_count (t : Z) : Z := t / 5 * (t / (t / 5)).
(** Every message of the lengths for which messages are due can compute its percentage. *)
Definition messages_fit (σ : st F64) (clock : Z -> bool) (count len : Z) : Prop :=
  forall l, 2 <= l <= len -> due F64 σ clock l = true -> 5 <= (len - l + 1) * count -> last_count ((len - l + 1) * count) * 100 <= 2147483647.

Lemma group_cases σ i thr d clock σ' n : api_group F64 σ i thr clock = Done F64 σ' (VInt F64 n) -> checkDatasetIndex F64 σ i = Ok d ->
  exists gs, global_group F64 (st_heap F64 σ) (st_ratio F64 σ) (ds_set F64 d) "euclidean" thr (due F64 σ clock) = Ok (gs, n).
Proof.
  intros E D. unfold api_group in E. rewrite D in E. cbn [lift] in E. destruct (negb _); [discriminate|].
  change (fun l : Z => clock l || (negb (st_logged F64 σ) && (l =? 2))) with (due F64 σ clock) in E.
  destruct (global_group _ _ _ _ _ _ _) as [(gs & n')| | |]; try discriminate. exists gs. injection E as _ ->. reflexivity.
Qed.

Theorem C67_group_in_range : forall writable (σ : st F64) i thr clock d σ' n,
  checkDatasetIndex F64 σ i = Ok d -> step F64 F64_IO writable σ (OpGroup F64 i thr clock) = Done F64 σ' (VInt F64 n) ->
  0 <= set_count (ds_set F64 d) -> set_len (ds_set F64 d) < 2147483647 -> set_count (ds_set F64 d) * set_len (ds_set F64 d) <= 2147483647 ->
  n <= 2147483647 -> messages_fit σ clock (set_count (ds_set F64 d)) (set_len (ds_set F64 d)) ->
  step32 F64 F64_IO writable σ (OpGroup F64 i thr clock) = Done F64 σ' (VInt F64 n).
Proof.
  intros writable σ i thr clock d σ' n D E Hc Hl HP Hn HM. cbn [step step32] in *. destruct (group_cases _ _ _ _ _ _ _ E D) as (gs & G).
  pose proof (global_group32_Ok F64 _ _ _ _ _ _ _ _ G Hc Hl HP Hn HM) as G32.
  unfold api_group in E. unfold api_group32. rewrite D in *. cbn [lift] in *. destruct (negb _); [discriminate|].
  change (fun l : Z => clock l || (negb (st_logged F64 σ) && (l =? 2))) with (due F64 σ clock) in *. rewrite G in E. rewrite G32. exact E.
Qed.
(** The converse: a number of groups or a message that does not fit is an overflow. *)
Theorem C67_group_overflows : forall writable (σ : st F64) i thr clock d σ' n,
  checkDatasetIndex F64 σ i = Ok d -> step F64 F64_IO writable σ (OpGroup F64 i thr clock) = Done F64 σ' (VInt F64 n) ->
  0 <= set_count (ds_set F64 d) ->
  2147483647 < n \/ ~ messages_fit σ clock (set_count (ds_set F64 d)) (set_len (ds_set F64 d)) ->
  step32 F64 F64_IO writable σ (OpGroup F64 i thr clock) = Bad F64 IntOverflow.
Proof.
  intros writable σ i thr clock d σ' n D E Hc H. destruct (C67_same_or_overflow writable σ (OpGroup F64 i thr clock)) as [X|X]; [exfalso|exact X].
  rewrite E in X. cbn [step step32] in *. destruct (group_cases _ _ _ _ _ _ _ E D) as (gs & G).
  unfold api_group32 in X. rewrite D in X. cbn [lift] in X. destruct (negb _); [discriminate|].
  change (fun l : Z => clock l || (negb (st_logged F64 σ) && (l =? 2))) with (due F64 σ clock) in X.
  destruct (global_group32 _ _ _ _ _ _ _) as [(gs' & n')| | |] eqn:G32; try discriminate. injection X as _ ->.
  destruct (global_group32_inv F64 _ _ _ _ _ _ _ _ G32 Hc) as (B1 & B2). destruct H as [H|H]; [unfold int_max in B1; lia|]. apply H. exact B2.
Qed.

(** Sizes for which grouping never overflows: at most 21474836 values, and at most 2147483647 subsequences. *)
Theorem C67_small_datasets : forall writable (σ : st F64) i thr clock d,
  checkDatasetIndex F64 σ i = Ok d -> 0 <= set_count (ds_set F64 d) ->
  set_count (ds_set F64 d) * set_len (ds_set F64 d) <= 21474836 -> set_len (ds_set F64 d) < 2147483647 ->
  set_count (ds_set F64 d) * (set_len (ds_set F64 d) * (set_len (ds_set F64 d) - 1)) <= 2 * 2147483647 ->
  (exists σ' n, step F64 F64_IO writable σ (OpGroup F64 i thr clock) = Done F64 σ' (VInt F64 n)) ->
  step32 F64 F64_IO writable σ (OpGroup F64 i thr clock) = step F64 F64_IO writable σ (OpGroup F64 i thr clock).
Proof.
  intros writable σ i thr clock d D Hc HP Hl HS (σ' & n & E). rewrite E. eapply C67_group_in_range; eauto; [lia| |].
  - cbn [step] in E. destruct (group_cases _ _ _ _ _ _ _ E D) as (gs & G). destruct (global_group_number F64 _ _ _ _ _ _ _ _ G Hc) as (_ & B).
    destruct (Z.lt_ge_cases (set_len (ds_set F64 d)) 1).
    + replace (Z.max 0 (set_len (ds_set F64 d) - 1)) with 0 in B by lia. lia.
    + replace (Z.max 0 (set_len (ds_set F64 d) - 1)) with (set_len (ds_set F64 d) - 1) in B by lia. lia.
  - intros l Hl2 _ H5. destruct (last_is_multiple _ H5) as (_ & B). change last_message with last_count in B.
    assert ((set_len (ds_set F64 d) - l + 1) * set_count (ds_set F64 d) <= set_count (ds_set F64 d) * set_len (ds_set F64 d)) by nia. lia.
Qed.

(** The first grouping of a process prints messages for length 2.  With five series or more, and more than
    26843545 subsequences of length 2, it overflows, whatever the values are. *)
Theorem C67_first_grouping : forall writable (σ : st F64) i thr clock d data,
  dataset F64 σ i d data -> st_logged F64 σ = false -> 5 <= set_count (ds_set F64 d) -> 2 <= set_len (ds_set F64 d) <= 2 ^ 30 ->
  lt F64 (ndiv F64 thr (f64_ofZ 2)) (ninf F64) ->
  26843545 < (set_len (ds_set F64 d) - 1) * set_count (ds_set F64 d) ->
  step32 F64 F64_IO writable σ (OpGroup F64 i thr clock) = Bad F64 IntOverflow.
Proof.
  intros writable σ i thr clock d data D HL Hc Hl Hinf HT.
  destruct (C52_five_series_suffice σ i thr d data clock D ltac:(lia) Hc Hinf) as (σ' & n & gs & E & _).
  pose proof D as (Dc & _). eapply (C67_group_overflows writable σ i thr clock d σ' n); [exact Dc|exact E|lia|]. right. intros M.
  specialize (M 2 ltac:(lia)). replace (set_len (ds_set F64 d) - 2 + 1) with (set_len (ds_set F64 d) - 1) in M by lia.
  set (t := (set_len (ds_set F64 d) - 1) * set_count (ds_set F64 d)) in *. pose proof (last_bounds t ltac:(lia)) as B. change last_message with last_count in B.
  assert (last_count t * 100 <= 2147483647); [|lia]. apply M; [|lia]. unfold due. rewrite HL. apply orb_true_r.
Qed.

(** Such a session: 27000 series of 1000 values. *)
Definition big_set : tset := mkSet (Some 0%nat) 1000 27000 "big" false.
Definition big_st : st F64 :=
  mkSt F64 [Some (zrepeat (f64_ofZ 0) 27000000)] [Some (mkDS F64 big_set None None)] 1 (nzero F64) false (fun _ => None).
Lemma big_dataset : dataset F64 big_st 0 (mkDS F64 big_set None None) (zrepeat (f64_ofZ 0) 27000000).
Proof.
  split; [reflexivity|]. exists 0%nat. split; [reflexivity|]. split; [reflexivity|]. split; [cbn; lia|].
  unfold zlen, zrepeat. rewrite repeat_length. cbn [set_count set_len ds_set big_set]. lia.
Qed.
Theorem C67_first_grouping_witness : exists (σ : st F64) i d data, dataset F64 σ i d data /\ Forall fin64 data /\
  forall writable clock, step32 F64 F64_IO writable σ (OpGroup F64 i (f64_ofZ 1) clock) = Bad F64 IntOverflow.
Proof.
  exists big_st, 0, (mkDS F64 big_set None None), (zrepeat (f64_ofZ 0) 27000000). split; [apply big_dataset|]. split.
  - apply Forall_forall. intros x H. apply repeat_spec in H. subst x. split; [reflexivity|exact I].
  - intros writable clock. eapply C67_first_grouping; [apply big_dataset|reflexivity|cbn; lia|cbn; lia|reflexivity|cbn; lia].
Qed.

(** ** The number of groups.  With a negative threshold every subsequence is a group of its own, so the number that
    grouping returns grows with the square of the length. *)
Definition all_subs (count len L : Z) : list coord :=
  list_prod (map Z.of_nat (seq 0 (Z.to_nat count))) (map Z.of_nat (seq 0 (Z.to_nat (len - L + 1)))).
Lemma all_subs_in count len L c : In c (all_subs count len L) <-> is_sub count len L c.
Proof.
  destruct c as (a & b). unfold all_subs, is_sub, coord. rewrite in_prod_iff, !in_map_iff. cbn [fst snd]. split.
  - intros ((x & <- & Hx) & (y & <- & Hy)). apply in_seq in Hx, Hy. lia.
  - intros (H1 & H2 & H3). split; [exists (Z.to_nat a)|exists (Z.to_nat b)]; (split; [lia|apply in_seq; lia]).
Qed.
Lemma NoDup_prod {A B} (l : list A) (l' : list B) : NoDup l -> NoDup l' -> NoDup (list_prod l l').
Proof.
  intros H H'. induction H as [|x l Hx Hl IH]; [constructor|]. cbn [list_prod].
  assert (D : NoDup (map (fun y => (x, y)) l')) by (apply FinFun.Injective_map_NoDup; [intros u v [= E]; exact E|exact H']).
  revert D. generalize (map (fun y => (x, y)) l') (fun z => proj1 (in_map_iff (fun y : B => (x, y)) l' z)). intros m Hm D.
  assert (M : forall z, In z m -> fst z = x) by (intros z Hz; destruct (Hm z Hz) as (y & <- & _); reflexivity). clear Hm.
  induction D as [|z m Hz D IHm]; [exact IH|]. cbn [app]. constructor; [|apply IHm; intros; apply M; now right].
  rewrite in_app_iff. intros [Q|Q]; [now apply Hz|]. destruct z as (z1 & z2). apply in_prod_iff in Q as (Q & _). pose proof (M (z1, z2) (or_introl eq_refl)) as E. cbn in E. now subst z1.
Qed.
Lemma all_subs_nodup count len L : NoDup (all_subs count len L).
Proof. apply NoDup_prod; apply FinFun.Injective_map_NoDup; try apply seq_NoDup; intros x y; apply Nat2Z.inj. Qed.
Lemma all_subs_len count len L : 0 <= count -> L <= len + 1 -> zlen (all_subs count len L) = count * (len - L + 1).
Proof. intros. unfold all_subs, zlen, coord. rewrite prod_length, !map_length, !seq_length. nia. Qed.
Lemma singles_len {A} (gm : list (list A)) : (forall ms, In ms gm -> exists c, ms = [c]) -> zlen (concat gm) = zlen gm.
Proof.
  induction gm as [|m gm IH]; intros H; [reflexivity|]. destruct (H m (or_introl eq_refl)) as (c & ->). cbn [concat app]. rewrite !zlen_cons, IH; auto.
  intros ms Hm. apply H. now right.
Qed.

Theorem C67_negative_threshold_number : forall (σ : st F64) i thr σ' n gs d data,
  grouped F64 σ i thr σ' n gs -> dataset F64 σ i d data -> 1 <= set_len (ds_set F64 d) <= 2 ^ 30 ->
  Forall fin64 data -> ok64 thr -> lt F64 (ndiv F64 thr (f64_ofZ 2)) (nzero F64) ->
  lt F64 (ndiv F64 thr (f64_ofZ 2)) (ninf F64) ->
  2 * n = set_count (ds_set F64 d) * (set_len (ds_set F64 d) * (set_len (ds_set F64 d) - 1)).
Proof.
  intros σ i thr σ' n gs d data G D Hlen Hdat Hthr Hneg Hinf.
  assert (Hc : 0 <= set_count (ds_set F64 d)) by (destruct D as (_ & b & _ & _ & B & _); exact B).
  destruct (C22_returns_number_of_groups _ _ _ _ _ _ _ _ G D ltac:(lia) Hinf) as (cnt & H1 & ->).
  set (len := set_len (ds_set F64 d)) in *. set (count := set_count (ds_set F64 d)) in *.
  assert (K : forall L, 2 <= L <= len -> cnt L = count * (len - L + 1)).
  { intros L HL. destruct (H1 L HL) as (gm & Ggm & ->).
    destruct (C17_groups_partition _ _ _ _ _ _ _ _ G D ltac:(unfold len in *; lia) Hinf L HL) as (gm' & Ggm' & ND & IN).
    assert (E : zlen gm = zlen gm').
    { destruct Ggm as (ls & E1 & E2 & _). destruct Ggm' as (ls' & E1' & E2' & _). rewrite E1 in E1'. injection E1' as <-. congruence. }
    rewrite E, <- (singles_len gm').
    - rewrite <- (all_subs_len count len L) by lia. unfold zlen. f_equal. apply Permutation_length. apply NoDup_Permutation; [exact ND|apply all_subs_nodup|].
      intros c. rewrite IN. symmetry. apply all_subs_in.
    - exact (C23_negative_threshold _ _ _ _ _ _ _ _ G D ltac:(unfold len in *; lia) Hdat Hthr Hneg L gm' HL Ggm'). }
  assert (X : forall m, Z.of_nat m <= len - 1 -> 2 * zsum (map (fun k => cnt (Z.of_nat k)) (seq 2 m)) = count * (Z.of_nat m * (2 * len - Z.of_nat m - 1))).
  { induction m as [|m IH]; intros Hm; [cbn; lia|]. rewrite seq_S, map_app. unfold zsum. rewrite fold_right_app. cbn [map fold_right].
    rewrite K by lia. assert (F : forall l x, fold_right Z.add x l = zsum l + x). { intros l x. unfold zsum. induction l as [|y l IHl]; cbn [fold_right]; [lia|]. rewrite IHl. lia. }
    rewrite F, Z.mul_add_distr_l, IH by lia. replace (Z.of_nat (2 + m)) with (Z.of_nat m + 2) by lia. replace (Z.of_nat (S m)) with (Z.of_nat m + 1) by lia. ring. }
  rewrite X by lia. rewrite Z2Nat.id by lia. ring.
Qed.
Theorem C67_number_overflows : forall writable (σ : st F64) i thr clock d data,
  dataset F64 σ i d data -> 5 <= set_count (ds_set F64 d) -> 1 <= set_len (ds_set F64 d) <= 2 ^ 30 ->
  Forall fin64 data -> ok64 thr -> lt F64 (ndiv F64 thr (f64_ofZ 2)) (nzero F64) -> lt F64 (ndiv F64 thr (f64_ofZ 2)) (ninf F64) ->
  2 * 2147483647 < set_count (ds_set F64 d) * (set_len (ds_set F64 d) * (set_len (ds_set F64 d) - 1)) ->
  step32 F64 F64_IO writable σ (OpGroup F64 i thr clock) = Bad F64 IntOverflow.
Proof.
  intros writable σ i thr clock d data D Hc Hl Hdat Hthr Hneg Hinf HT.
  destruct (C52_five_series_suffice σ i thr d data clock D ltac:(lia) Hc Hinf) as (σ' & n & gs & E & G).
  pose proof (C67_negative_threshold_number _ _ _ _ _ _ _ _ G D Hl Hdat Hthr Hneg Hinf) as X.
  pose proof D as (Dc & _). eapply (C67_group_overflows writable σ i thr clock d σ' n); [exact Dc|exact E|lia|]. left. lia.
Qed.
(** Five series of 40000 values are enough. *)
Definition long_set : tset := mkSet (Some 0%nat) 40000 5 "long" false.
Definition long_st : st F64 :=
  mkSt F64 [Some (zrepeat (f64_ofZ 0) 200000)] [Some (mkDS F64 long_set None None)] 1 (nzero F64) true (fun _ => None).
Theorem C67_number_witness : exists (σ : st F64) i d data, dataset F64 σ i d data /\ Forall fin64 data /\ zlen data = 200000 /\
  forall writable clock, step32 F64 F64_IO writable σ (OpGroup F64 i (f64_ofZ (-1)) clock) = Bad F64 IntOverflow.
Proof.
  assert (L : zlen (zrepeat (f64_ofZ 0) 200000) = 200000) by (unfold zlen, zrepeat; rewrite repeat_length; lia).
  assert (D : dataset F64 long_st 0 (mkDS F64 long_set None None) (zrepeat (f64_ofZ 0) 200000)).
  { split; [reflexivity|]. exists 0%nat. split; [reflexivity|]. split; [reflexivity|]. split; [cbn; lia|].
    unfold zlen, zrepeat. rewrite repeat_length. cbn [set_count set_len ds_set long_set]. lia. }
  assert (F : Forall fin64 (zrepeat (f64_ofZ 0) 200000)).
  { apply Forall_forall. intros x H. apply repeat_spec in H. subst x. split; [reflexivity|exact I]. }
  exists long_st, 0, (mkDS F64 long_set None None), (zrepeat (f64_ofZ 0) 200000). split; [exact D|]. split; [exact F|]. split; [exact L|].
  intros writable clock. eapply C67_number_overflows; [exact D|cbn; lia|cbn; lia|exact F| |reflexivity|reflexivity|cbn; lia].
  split; [reflexivity|discriminate].
Qed.

(** ** Cases that meet the hypotheses. *)
Example C67_case : exists σ' n, step F64 F64_IO (fun _ => true) (ex_st F64 f64_ofZ) (OpGroup F64 0 (f64_ofZ 1) (fun _ => false)) = Done F64 σ' (VInt F64 n) /\
  step32 F64 F64_IO (fun _ => true) (ex_st F64 f64_ofZ) (OpGroup F64 0 (f64_ofZ 1) (fun _ => false)) = Done F64 σ' (VInt F64 n).
Proof.
  destruct (group_returns F64 fin64 pos64 (ex_st F64 f64_ofZ) 0 (f64_ofZ 1) _ _ (fun _ => false) (ex_dataset F64 f64_ofZ)) as (σ' & n & gs & E & _).
  - cbn. lia.
  - cbn. lia.
  - reflexivity.
  - intros l Hl. unfold due. cbn. destruct (Z.eqb_spec l 2); [|discriminate]. intros _ _. subst l. cbn. lia.
  - exists σ', n. split; [exact E|]. rewrite (C67_small_datasets (fun _ => true) (ex_st F64 f64_ofZ) 0 (f64_ofZ 1) (fun _ => false) (mkDS F64 ex_set None None)); try reflexivity; try (cbn; lia); [exact E|].
    exists σ', n. exact E.
Qed.

Definition one_file (p : string) : option text := if String.eqb p "f" then Some (T_ "1,2,3,4" ++ [nl] ++ T_ "5,6,7,8" ++ [nl]) else None.
Example C67_case_loading : exists σ d, run32 F64 F64_IO (fun _ => true) (st_init F64 one_file) [OpLoad F64 "f" 0 1 (T_ ","); OpPAA F64 0 2] = Some σ /\
  checkDatasetIndex F64 σ 0 = Ok d /\ set_len (ds_set F64 d) = 2 /\ set_count (ds_set F64 d) = 2.
Proof.
  assert (X : match run32 F64 F64_IO (fun _ => true) (st_init F64 one_file) [OpLoad F64 "f" 0 1 (T_ ","); OpPAA F64 0 2] with
     Some σ => match checkDatasetIndex F64 σ 0 with Ok d => (set_len (ds_set F64 d) =? 2) && (set_count (ds_set F64 d) =? 2) | _ => false end | None => false end = true) by (vm_compute; reflexivity).
  destruct (run32 _ _ _ _ _) as [σ|]; [|discriminate X]. exists σ. destruct (checkDatasetIndex F64 σ 0) as [d| | |]; try discriminate X. exists d.
  apply andb_prop in X as (X1 & X2). apply Z.eqb_eq in X1, X2. auto.
Qed.
(** The file of this case is within the bounds of [C67_load_in_range]. *)
Example C67_case_file : match one_file "f" with
  Some t => (rows_read t 0 * first_columns t (T_ ",") =? 8) && (zlen (lines t) =? 2) | None => false end = true.
Proof. vm_compute. reflexivity. Qed.
