(** * Property C68: the 32-bit integers of whole sessions.

    [step32] and [run32] (Ints.v) are the program in which an [int] expression that does not fit 32 bits is undefined
    behaviour; [within] and [small] are in Ints2Spec.v, [safe] in SafeSpec.v. *)
From Coq Require Import ZArith Bool Lia Reals SpecFloat Ascii String List.
From Verif Require Import Outcome Num Lemire Distance TimeSeries Text Dataset Groups Api Laws F64Base F64Laws Numeric Band.
From Verif Require Import GroupSpec FileSpec DecSpec NumSpec GroupFileSpec GroupProofs GlobalGroup SafeSpec SafeProofs SafeCheck Properties_Groups Properties_GroupFile Properties_Safe.
From Verif Require Import Ints IntsProofs IntsMatch IntsSafe Properties_Ints Ints2Spec.
From Verif Require DtwProofs GroupFileProofs.
Import ListNotations.
Open Scope Z_scope.

(** ** Distances: for a band ratio between 0 and 1 and series of up to 2^29 points the index arithmetic of the warped distance
    and of the envelope never overflows. *)
Theorem C68_distance : forall ratio (a b : list spec_float) cutoff, ratio64 ratio -> zlen a <= 2 ^ 29 -> zlen b <= 2 ^ 29 ->
  warpedDistance32 F64 ratio a b cutoff = warpedDistance F64 ratio a b cutoff.
Proof. intros ratio a b d R Ha Hb. apply warped_same; [now apply ratio_mild|split; [apply zlen_nonneg|exact Ha]|split; [apply zlen_nonneg|exact Hb]]. Qed.
Theorem C68_envelope : forall (t : list spec_float) band, 0 <= band <= 2 ^ 29 -> zlen t <= 2 ^ 29 ->
  lower_upper_lemire32 F64 t band = lower_upper_lemire F64 t band.
Proof. intros t r R H. apply lemire_same; [unfold near; lia|split; [apply zlen_nonneg|exact H]]. Qed.
(** The ratio matters: any ratio that makes the band smaller than -2^30 overflows when the band is doubled, whatever the values;
    without the limit of 32 bits the distance of the two series of the witness would be infinite. *)
Lemma band_overflows (N : NumOps) ratio (a b : list (num N)) cutoff r : 1 <= zlen a <= 2147483647 -> 1 <= zlen b <= 2147483647 -> 3 <= zlen a + zlen b ->
  calculateWarpingBandSize N ratio (Z.max (zlen a) (zlen b)) = Ok r -> r < - 1073741824 -> warpedDistance32 N ratio a b cutoff = UB IntOverflow.
Proof.
  intros Ha Hb Hab Er Hr. unfold warpedDistance32.
  assert (E32 : band32 N ratio (Z.max (zlen a) (zlen b)) = Ok r).
  { rewrite <- Er. unfold band32, calculateWarpingBandSize. apply bind_same. intros x _. rewrite chk_in by (unfold int_min, int_max; lia). reflexivity. }
  rewrite E32. cbn [bind]. destruct ((zlen a =? 1) && (zlen b =? 1)) eqn:E1; [apply andb_true_iff in E1; lia|]. clear E1.
  set (cost := zrepeat (zrepeat (nzero N) (zlen b)) (zlen a)).
  assert (S0 : DtwProofs.shape N (zlen a) (zlen b) cost).
  { split; [apply GroupFileProofs.zrepeat_len; lia|]. intros i row Hrow. apply zget_in in Hrow. apply repeat_spec in Hrow. subst row. apply GroupFileProofs.zrepeat_len. lia. }
  destruct (DtwProofs.mset_Ok N (zlen a) (zlen b) cost (zlen a - 1) (zlen b - 1) (ninf N) S0 ltac:(lia) ltac:(lia)) as (c1 & E1 & S1 & _). rewrite E1. cbn [bind].
  assert (A : forall l : list (num N), 1 <= zlen l -> exists x, ts_at N l 0 = Ok x).
  { intros l Hl. destruct (zget_Ok l 0 ltac:(lia)) as (x & Ex). exists x. unfold ts_at. change (0 <? 0) with false. cbn [orb]. destruct (Z.leb_spec (zlen l) 0); [lia|exact Ex]. }
  destruct (A a ltac:(lia)) as (a0 & ->). destruct (A b ltac:(lia)) as (b0 & ->). cbn [bind].
  destruct (DtwProofs.mset_Ok N (zlen a) (zlen b) c1 0 0 (sqd N a0 b0) S1 ltac:(lia) ltac:(lia)) as (c2 & E2 & _). rewrite E2. cbn [bind].
  rewrite chk_out by (unfold int_min; lia). reflexivity.
Qed.
Theorem C68_band_overflows : forall ratio (a b : list spec_float) cutoff r, 1 <= zlen a <= 2147483647 -> 1 <= zlen b <= 2147483647 -> 3 <= zlen a + zlen b ->
  calculateWarpingBandSize F64 ratio (Z.max (zlen a) (zlen b)) = Ok r -> r < - 2 ^ 30 ->
  warpedDistance32 F64 ratio a b cutoff = UB IntOverflow.
Proof. intros ratio a b d r. exact (band_overflows F64 ratio a b d r). Qed.
Theorem C68_ratio_witness : exists ratio (a b : list spec_float) r, fin64 ratio /\ zlen a = 2 /\ zlen b = 2 /\
  calculateWarpingBandSize F64 ratio 2 = Ok r /\ r = - 2 ^ 30 - 1 /\
  warpedDistance F64 ratio a b (ninf F64) = Ok (ninf F64) /\ warpedDistance32 F64 ratio a b (ninf F64) = UB IntOverflow.
Proof.
  exists (ndiv F64 (f64_ofZ (-1073741825)) (f64_ofZ 2)), [f64_ofZ 1; f64_ofZ 2], [f64_ofZ 3; f64_ofZ 4], (-1073741825).
  split; [split; vm_compute; auto|]. repeat split; vm_compute; reflexivity.
Qed.

(** ** One call of a session *)
Section Session.
Context (writable : string -> bool) (files : string -> option text).
Local Notation run := (run F64 F64_IO writable).
Local Notation step := (step F64 F64_IO writable).
Local Notation run32 := (run32 F64 F64_IO writable).
Local Notation step32 := (step32 F64 F64_IO writable).

Lemma step_same past σ o : good writable files past σ -> all_sized F64 σ -> safe writable files past σ o -> within writable σ o -> step32 σ o = step σ o.
Proof.
  intros G A S W. destruct o; try reflexivity; cbn [within] in W.
  - destruct W as (W1 & W2). now apply load_same.
  - now apply save_same.
  - eapply normalize_same; eauto.
  - destruct W as (W1 & W2). eapply group_same; eauto.
  - eapply saveGroup_same; eauto.
  - eapply loadGroup_same; eauto.
  - eapply match_same; eauto.
  - eapply paa_same; eauto.
Qed.
Lemma within_column σ o : within writable σ o -> from_column F64 o.
Proof. destruct o; cbn; auto. intros ((H & _) & _). exact H. Qed.
Lemma run32_app l1 : forall σ l2, run32 σ (l1 ++ l2) = match run32 σ l1 with Some σ' => run32 σ' l2 | None => None end.
Proof. induction l1 as [|o l1 IH]; intros σ l2; cbn [Ints.run32 app]; auto. destruct (after F64 (step32 σ o)); auto. Qed.
Lemma session_same ops : safe_history writable files ops -> within_history writable files ops ->
  exists σ, run (st_init F64 files) ops = Some σ /\ run32 (st_init F64 files) ops = Some σ /\ good writable files ops σ /\ all_sized F64 σ.
Proof.
  induction ops as [|o ops IH] using rev_ind; intros H W.
  - exists (st_init F64 files). split; [reflexivity|]. split; [reflexivity|]. split; [apply init_good|constructor].
  - destruct IH as (σ & E & E32 & G & A).
    { intros past o' rest s E Es. apply (H past o' (rest ++ [o])); auto. rewrite E, <- app_assoc. reflexivity. }
    { intros past o' rest s E Es. apply (W past o' (rest ++ [o])); auto. rewrite E, <- app_assoc. reflexivity. }
    assert (S : safe writable files ops σ o) by (apply (H ops o []); auto). assert (Wo : within writable σ o) by (apply (W ops o [] σ); auto).
    destruct (step_goes writable files ops σ o E G S) as (σ' & Ea & G'). pose proof (step_same ops σ o G A S Wo) as X.
    exists σ'. split; [rewrite run_app, E; cbn [Api.run]; now rewrite Ea|]. assert (Ea32 : after F64 (step32 σ o) = Some σ') by (rewrite X; exact Ea).
    split; [rewrite run32_app, E32; cbn [Ints.run32]; now rewrite Ea32|]. split; [exact G'|].
    eapply step32_sized; [exact A|eapply within_column; eauto|exact Ea32].
Qed.
End Session.

(** ** A history of safe calls that are within the range never overflows: the 32-bit program returns what the unbounded one returns,
    call by call, and both end in the same state. *)
Theorem C68_safe_sessions : forall writable files ops, safe_history writable files ops -> within_history writable files ops ->
  exists s, run F64 F64_IO writable (st_init F64 files) ops = Some s /\ run32 F64 F64_IO writable (st_init F64 files) ops = Some s.
Proof. intros w f ops H W. destruct (session_same w f ops H W) as (s & A & B & _). eauto. Qed.
Theorem C68_every_call : forall writable files past o rest, safe_history writable files (past ++ o :: rest) -> within_history writable files (past ++ o :: rest) ->
  exists s s', run32 F64 F64_IO writable (st_init F64 files) past = Some s /\ step32 F64 F64_IO writable s o = step F64 F64_IO writable s o /\
    ((exists v, step32 F64 F64_IO writable s o = Done F64 s' v) \/ exists e, step32 F64 F64_IO writable s o = Exn F64 s' e).
Proof.
  intros w f past o rest H W. destruct (session_same w f past) as (s & E & E32 & G & A).
  { intros p o' r s E Es. apply (H p o' (r ++ o :: rest)); auto. rewrite E, <- app_assoc. reflexivity. }
  { intros p o' r s E Es. apply (W p o' (r ++ o :: rest)); auto. rewrite E, <- app_assoc. reflexivity. }
  assert (S : safe w f past s o) by (eapply H; eauto).
  pose proof (step_same w f past s o G A S ltac:(eapply W; eauto)) as X.
  destruct (step_goes w f past s o E G S) as (s' & Ea & _). exists s, s'. split; [exact E32|]. split; [exact X|]. rewrite X.
  destruct (step F64 F64_IO w s o); try discriminate; injection Ea as ->; eauto.
Qed.

(** ** Small inputs are within the range. *)

(** A group takes a character of the file at least. *)
Lemma word_shrinks t w r : first_word t w r -> zlen r + 1 <= zlen t.
Proof.
  intros (s & -> & _ & Hw & _). rewrite !zlen_app. pose proof (zlen_nonneg s). destruct w as [|c w]; [congruence|]. rewrite zlen_cons. pose proof (zlen_nonneg w). lia.
Qed.
Lemma int_shrinks t z r : first_int t z r -> zlen r + 1 <= zlen t.
Proof. intros (w & H & _). eapply word_shrinks; eauto. Qed.
Lemma double_shrinks t y r : first_double t y r -> zlen r + 1 <= zlen t.
Proof. intros (w & neg & m & e & H & _). eapply word_shrinks; eauto. Qed.
Lemma reads_shrink {A} (R : list ascii -> A -> list ascii -> Prop) (k : A -> Z) : (forall t a r, R t a r -> zlen r + k a <= zlen t) ->
  forall l t r, reads R t l r -> zlen r + fold_right Z.add 0 (map k l) <= zlen t.
Proof.
  intros HR. induction l as [|a l IH]; intros t r H; cbn [reads map fold_right] in *; [subst; lia|]. destruct H as (t' & H1 & H2). apply HR in H1. apply IH in H2. lia.
Qed.
Lemma fold_ones {A} (l : list A) : fold_right Z.add 0 (map (fun _ => 1) l) = zlen l.
Proof. induction l as [|a l IH]; [reflexivity|]. cbn [map fold_right]. rewrite IH, zlen_cons. lia. Qed.
Lemma group_shrinks t g r : reads_group t g r -> zlen r + 1 <= zlen t.
Proof.
  intros (t1 & t2 & H1 & H2 & H3). apply int_shrinks in H2.
  apply (reads_shrink _ (fun _ => 1)) in H1; [|intros; eapply double_shrinks; eauto].
  apply (reads_shrink _ (fun _ => 1)) in H3.
  - rewrite fold_ones in H1. rewrite fold_ones in H3. pose proof (zlen_nonneg (fst g)). pose proof (zlen_nonneg (snd g)). lia.
  - intros t0 a r0 (t' & A1 & A2). apply int_shrinks in A1, A2. lia.
Qed.
Lemma file_groups t thr cnt len name f : group_file t thr cnt len name f -> group_total f len <= zlen t.
Proof.
  intros (r & r1 & r2 & r3 & r4 & (q1 & q2 & q3 & H1 & H2 & H3 & H4) & W1 & W2 & W3 & W4).
  apply int_shrinks in H1, H3, H4, W1, W2. apply double_shrinks in H2. apply word_shrinks in W3.
  apply (reads_shrink _ (fun L => zlen (f L))) in W4; [unfold group_total; pose proof (zlen_nonneg r4); lia|].
  intros t0 L r0 (t1 & A1 & A2). apply int_shrinks in A1. apply (reads_shrink _ (fun _ => 1)) in A2; [rewrite fold_ones in A2; lia|]. intros; eapply group_shrinks; eauto.
Qed.
Lemma step_within writable files past σ o : good writable files past σ -> safe writable files past σ o -> small σ o -> within writable σ o.
Proof.
  intros G S M. destruct o; cbn [small within] in *; auto.
  - destruct M as (M1 & M2). split; auto. intros contents E. apply small_table. auto.
  - split.
    + intros s' n E. cbn [step] in E. destruct (check_or σ i) as [(d & C)|(e & C)]; [|unfold api_group in E; rewrite C in E; discriminate].
      destruct (M d (check_has _ _ _ C)) as (M1 & M2). assert (Hc : 0 <= set_count (ds_set F64 d)).
      { destruct (proj1 (proj2 (proj2 G) i d C)) as [(_ & Hc & _)|(b & data & _ & _ & Hc & _)]; lia. }
      destruct (group_cases _ _ _ _ _ _ _ E C) as (gs & Eg). destruct (global_group_number F64 _ _ _ _ _ _ _ _ Eg Hc) as (_ & B).
      destruct (Z.lt_ge_cases (set_len (ds_set F64 d)) 1).
      * replace (Z.max 0 (set_len (ds_set F64 d) - 1)) with 0 in B by lia. lia.
      * replace (Z.max 0 (set_len (ds_set F64 d) - 1)) with (set_len (ds_set F64 d) - 1) in B by lia. lia.
    + intros d Hd. destruct (M d Hd) as (M1 & _). intros l Hl2 _ H5. destruct (last_is_multiple _ H5) as (_ & B). change last_message with last_count in B.
      assert (Hc : 0 <= set_count (ds_set F64 d)).
      { destruct (proj1 (proj2 (proj2 G) i d (has_check _ _ _ Hd))) as [(_ & Hc & _)|(b & data & _ & _ & Hc & _)]; lia. }
      assert ((set_len (ds_set F64 d) - l + 1) * set_count (ds_set F64 d) <= set_count (ds_set F64 d) * set_len (ds_set F64 d)) by nia. lia.
  - intros s' n E. destruct (check_or σ i) as [(d & C)|(e & C)]; [|cbn [step] in E; unfold api_loadGroup in E; rewrite C in E; discriminate].
    pose proof (check_has _ _ _ C) as Hd. destruct (st_files F64 σ path) as [t|] eqn:Ef; [|rewrite (C41_missing_file writable σ i d path Hd Ef) in E; discriminate].
    specialize (M t eq_refl).
    destruct (S d t Hd Ef) as [[(v & r & Hv & Hne)|(thr & cnt & len & r & Hh & Hne)]|(Hbuf & Hlen & thr & name & f & Hg & Hnm & Hsz & Hme & Hlo & Hf)].
    + rewrite (C41_version writable σ i d path t v r Hd Ef Hv Hne) in E. discriminate.
    + destruct (Z.eq_dec cnt (set_count (ds_set F64 d))) as [->|Hc]; [|rewrite (C41_count writable σ i d path t thr cnt len r Hd Ef Hh Hc) in E; discriminate].
      rewrite (C41_length writable σ i d path t thr len r Hd Ef Hh ltac:(now destruct Hne)) in E. discriminate.
    + destruct (proj1 (proj2 (proj2 G) i d C)) as [(Hb & _)|(b & data & Hb & Hh & Hc & Hl & Hs)]; [congruence|].
      assert (D : dataset F64 σ i d data) by (split; auto; exists b; auto).
      destruct (load_general writable σ i d data path t thr name f D Ef ltac:(lia) Hg Hnm Hsz) as [(E' & _)|(k & sp & E' & _)]; rewrite E' in E; [discriminate|].
      injection E as _ <-. pose proof (file_groups _ _ _ _ _ _ Hg). change text with (list ascii) in *. lia.
Qed.
Theorem C68_small_within : forall writable files ops, safe_history writable files ops -> small_history writable files ops -> within_history writable files ops.
Proof.
  intros w f ops H M past o rest s E Es. destruct (safe_run w f past) as (s1 & E1 & G).
  { intros p o' r s' E' Es'. apply (H p o' (r ++ o :: rest)); auto. rewrite E, E', <- app_assoc. reflexivity. }
  rewrite Es in E1. injection E1 as <-. eapply step_within; eauto.
Qed.
(** Sessions with small inputs: safe and small histories never overflow. *)
Theorem C68_small_sessions : forall writable files ops, safe_history writable files ops -> small_history writable files ops ->
  exists s, run F64 F64_IO writable (st_init F64 files) ops = Some s /\ run32 F64 F64_IO writable (st_init F64 files) ops = Some s.
Proof. intros w f ops H M. apply C68_safe_sessions; auto. now apply C68_small_within. Qed.

(** ** A group file of 56 characters: the member "715827883 -2147483648" has the place 1 in the table of the subsequences of
    length 2 of a series of four values, but computing it overflows. *)
Definition wrap_file : text := T_ "1 1 1 4" ++ [nl] ++ T_ "2 5 euclidean" ++ [nl] ++ T_ "1" ++ [nl] ++ T_ "1 2 1 715827883 -2147483648" ++ [nl] ++ T_ "0" ++ [nl] ++ T_ "0" ++ [nl].
Definition wrap_files (p : string) : option text := if String.eqb p "d" then Some (T_ "1,2,3,4" ++ [nl]) else if String.eqb p "g" then Some wrap_file else None.
Theorem C68_group_file_witness : exists files s, run32 F64 F64_IO (fun _ => true) (st_init F64 files) [OpLoad F64 "d" 0 0 (T_ ",")] = Some s /\
  (exists s', step F64 F64_IO (fun _ => true) s (OpLoadGroup F64 0 "g") = Done F64 s' (VInt F64 1)) /\
  step32 F64 F64_IO (fun _ => true) s (OpLoadGroup F64 0 "g") = Bad F64 IntOverflow.
Proof.
  exists wrap_files.
  assert (X : match run32 F64 F64_IO (fun _ => true) (st_init F64 wrap_files) [OpLoad F64 "d" 0 0 (T_ ",")] with
    | Some s => match step F64 F64_IO (fun _ => true) s (OpLoadGroup F64 0 "g"), step32 F64 F64_IO (fun _ => true) s (OpLoadGroup F64 0 "g") with
                | Done _ _ (VInt _ n), Bad _ IntOverflow => n =? 1 | _, _ => false end
    | None => false end = true) by (vm_compute; reflexivity).
  destruct (run32 _ _ _ _ _) as [s|]; [|discriminate X]. exists s. split; [reflexivity|].
  destruct (step F64 F64_IO (fun _ => true) s (OpLoadGroup F64 0 "g")) as [s' v| | |]; try discriminate X. destruct v as [|n| | | |]; try discriminate X.
  destruct (step32 F64 F64_IO (fun _ => true) s (OpLoadGroup F64 0 "g")) as [| |u|]; try discriminate X. destruct u; try discriminate X.
  apply Z.eqb_eq in X. subst n. split; [eauto|reflexivity].
Qed.

(** ** Sessions that meet the hypotheses: the two example sessions of C48 (loading, grouping, matching, normalizing, reducing, saving
    and loading of groups). *)
Definition small_b (s : st F64) (o : op F64) : bool :=
  match o with
  | OpLoad _ p m c seps => (0 <=? c) && (c <=? 2147483647) && match st_files F64 s p with Some t => zlen t <=? 131070 | None => true end
  | OpGroup _ i thr clock => match checkDatasetIndex F64 s i with
      | Ok d => let c := set_count (ds_set F64 d) in let l := set_len (ds_set F64 d) in (c * l <=? 21474836) && (c * (l * (l - 1)) <=? 2 * 2147483647)
      | _ => true end
  | OpLoadGroup _ i p => match st_files F64 s p with Some t => zlen t <=? 2147483647 | None => true end
  | _ => true
  end.
Lemma small_b_holds s o : small_b s o = true -> small s o.
Proof.
  destruct o; cbn [small_b small]; intros H; auto.
  - apply andb_true_iff in H as (H & H3). apply andb_true_iff in H as (H1 & H2). split; [lia|]. intros t E. rewrite E in H3. lia.
  - intros d Hd. rewrite (has_check _ _ _ Hd) in H. cbv zeta in H. apply andb_true_iff in H. lia.
  - intros t E. rewrite E in H. lia.
Qed.
Fixpoint smalls_b (writable : string -> bool) (s : st F64) (ops : list (op F64)) : bool :=
  match ops with
  | [] => true
  | o :: l => small_b s o && match after F64 (step F64 F64_IO writable s o) with Some s' => smalls_b writable s' l | None => true end
  end.
Lemma smalls_b_holds writable files ops : smalls_b writable (st_init F64 files) ops = true -> small_history writable files ops.
Proof.
  intros H past o rest s E R. subst ops. revert H R. generalize (st_init F64 files). induction past as [|p past IH]; intros σ H R; cbn [app smalls_b run] in *; apply andb_true_iff in H as (H1 & H2).
  - injection R as ->. now apply small_b_holds.
  - destruct (after F64 (step F64 F64_IO writable σ p)) as [σ'|]; [|discriminate]. eapply IH; eauto.
Qed.
Example C68_case : safe_history (fun p => negb (String.eqb p "a")) ex_file ex_ops /\ small_history (fun p => negb (String.eqb p "a")) ex_file ex_ops.
Proof. split; [exact C48_example|]. apply smalls_b_holds. vm_compute. reflexivity. Qed.
Example C68_case_groups : safe_history (fun p => negb (String.eqb p "a")) ex_file3 ex_ops3 /\ small_history (fun p => negb (String.eqb p "a")) ex_file3 ex_ops3.
Proof. split; [exact C48_reload_example|]. apply smalls_b_holds. vm_compute. reflexivity. Qed.
Example C68_case_distance : exists ratio, ratio64 ratio /\ zlen [f64_ofZ 1; f64_ofZ 2; f64_ofZ 5] <= 2 ^ 29.
Proof. exists (ndiv F64 (nofZ F64 1) (nofZ F64 10)). split; [apply default_ratio|]. cbn. lia. Qed.
