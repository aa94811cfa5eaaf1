(** * C48: a history of safe calls never has undefined behaviour and never hangs.

    [safe] and [safe_history] are in SafeSpec.v.  The theorem is for double arithmetic; exceptions are allowed and are
    caught by the caller.  What happens after unsafe calls is in the theorems of C12, C29, C30, C33, C38, C43 and C52. *)
From Coq Require Import ZArith Bool Lia Reals Lra SpecFloat Ascii String List.
From Flocq Require Import Core BinarySingleNaN.
From Verif Require Import Outcome Num Distance TimeSeries Text Dataset Groups Api Laws F64Base F64Laws Numeric Band.
From Verif Require Import GroupSpec FileSpec DecSpec NumSpec GroupFileSpec LoadProofs GroupProofs GroupFacts SessionProofs SessionMatch DigitsProofs GroupFileProofs Properties_Groups Properties_Match Properties_GroupFile SafeSpec SafeProofs SafeCheck.
Import ListNotations.
Open Scope Z_scope.

Theorem C48_safe_histories : forall writable files ops, safe_history writable files ops ->
  exists s, run F64 F64_IO writable (st_init F64 files) ops = Some s.
Proof. intros w f ops H. destruct (safe_run w f ops H) as (s & E & _). eauto. Qed.

(** Each call of the history returns a value or throws. *)
Theorem C48_every_call : forall writable files past o rest, safe_history writable files (past ++ o :: rest) ->
  exists s s', run F64 F64_IO writable (st_init F64 files) past = Some s /\
    ((exists v, step F64 F64_IO writable s o = Done F64 s' v) \/ exists e, step F64 F64_IO writable s o = Exn F64 s' e).
Proof.
  intros w f past o rest H. destruct (safe_run w f past) as (s & E & G).
  - intros p o' r s E Es. apply (H p o' (r ++ o :: rest)); auto. rewrite E, <- app_assoc. reflexivity.
  - destruct (step_goes w f past s o E G) as (s' & A & _); [eapply H; eauto|]. exists s, s'. split; auto.
    destruct (step F64 F64_IO w s o); try discriminate; injection A as ->; eauto.
Qed.

(** ** Files that the program wrote are among the files that are safe to load: a save of groups that were made by grouping writes a file
    that fits every dataset with the same number of series and the same length. *)
Theorem C48_saved_files : forall writable σ i thr t data p, grouped_earlier F64 F64_IO writable σ i thr t data -> writable p = true -> fin64 thr ->
  1 <= set_count t < 2 ^ 31 -> set_len t <= 2 ^ 30 -> set_count t * set_len t < 2 ^ 31 ->
  Forall (fun x => fin64 x /\ (Rabs (val x) <= bpow radix2 499)%R) data ->
  exists σ' file, step F64 F64_IO writable σ (OpSaveGroup F64 i p false) = Done F64 σ' (VUnit F64) /\ st_files F64 σ' p = Some file /\
    fitting_file (set_count t) (set_len t) file.
Proof.
  intros writable σ i thr t data p G Hp Ft Hc Hl Hs Hd.
  assert (H499 : forall x, fin64 x /\ (Rabs (val x) <= bpow radix2 499)%R -> prints 16 x).
  { intros x (F & B). apply small_prints. split; auto. apply Rle_trans with (1 := B). apply bpow_le. lia. }
  destruct (earlier_ready F64 F64_IO writable fin64 pos64 σ i thr t data G ltac:(lia) (half64_lt_inf thr Ft)) as (W & gmf & d & R & Et & Eth).
  destruct (C40_save writable σ i thr t data p gmf G Hp Ft ltac:(lia) Hl Hs) as (σ1 & file & thr2 & f & E & Ef & _ & _ & Hg & _ & Hw & _ & F1 & F2 & F3).
  { revert Hd. apply Forall_impl. exact H499. }
  { intros L HL. rewrite <- Et in *. now apply (ready_now F64 σ i d data gmf L (gmf L) R HL). }
  exists σ1, file. split; auto. split; auto. exists thr2, (list_ascii_of_string "euclidean"), f. split; [exact Hg|]. split; [now left|]. do 3 (split; [assumption|]).
  pose proof R as (_ & _ & b & gs & _ & _ & _ & B4 & _ & B6 & B7 & _). rewrite Et in *.
  intros L HL. destruct (Hw L HL) as (Hz & Hrep). split.
  - intros E0. rewrite E0 in Hz. assert (Hin : In (0, 0) (concat (gmf L))) by (apply B7; [auto|]; unfold valid; cbn [fst snd]; lia).
    destruct (gmf L) as [|m l]; [destruct Hin|]. rewrite zlen_cons in Hz. pose proof (zlen_nonneg l). change (zlen (@nil (list spec_float * list coord))) with 0 in Hz. lia.
  - intros v cs Hin. apply in_zget in Hin as (k & Hk & Ek). destruct (zget_Ok (gmf L) k) as (ms & Em); [rewrite <- Hz; exact Hk|].
    destruct (Hrep k ms v cs Em Ek) as (_ & Zv & Hr). destruct (proj2 B6 L HL) as (ls & _ & Hls). destruct (ls_get _ _ _ _ _ _ _ _ _ Hls Em) as (g & _ & _ & _ & _ & _ & Hne & _).
    apply Forall_forall. intros y Hy. apply in_zget in Hy as (m & Hm & Ey).
    destruct (zget_Ok (sub_values F64 data (set_len t) L (hd (0, 0) ms)) m) as (x & Ex); [change (num F64) with spec_float in *; lia|].
    assert (Hx : fin64 x /\ (Rabs (val x) <= bpow radix2 499)%R).
    { rewrite Forall_forall in Hd. apply Hd. apply zget_in in Ex. apply in_slice in Ex. exact Ex. }
    eapply reread_small; [apply Hx|apply Hx|]. eapply Hr; eauto.
Qed.
Example C48_saved_files_case : exists σ, grouped_earlier F64 F64_IO (fun _ => true) σ 0 (f64_ofZ 1) ex_set (map f64_ofZ ex_ints) /\ fin64 (f64_ofZ 1) /\
  1 <= set_count ex_set < 2 ^ 31 /\ set_len ex_set <= 2 ^ 30 /\ set_count ex_set * set_len ex_set < 2 ^ 31 /\
  Forall (fun x => fin64 x /\ (Rabs (val x) <= bpow radix2 499)%R) (map f64_ofZ ex_ints).
Proof.
  destruct (ex_earlier F64 F64_IO (fun _ => true) fin64 pos64 f64_ofZ (f64_ofZ 1)) as (σ & G & _); [vm_compute; reflexivity|]. exists σ. split; auto.
  split; [apply ofZ_exact; lia|]. cbn [set_count set_len ex_set]. split; [lia|]. split; [lia|]. split; [lia|].
  apply Forall_forall. intros x Hx. apply in_map_iff in Hx as (z & <- & Hz). assert (Hzb : Z.abs z <= 2 ^ 53) by (unfold ex_ints in Hz; cbn in Hz; lia).
  destruct (ofZ_exact z Hzb) as (F & V). split; auto. rewrite V, <- abs_IZR. apply Rle_trans with (bpow radix2 53); [|apply bpow_le; lia].
  change (bpow radix2 53) with (IZR (2 ^ 53)). now apply IZR_le.
Qed.

(** ** A program that decides (a part of) safety, to show that histories of interest are safe.  [fr] are the datasets with fresh groups. *)
Definition fresh_b (i : Z) (fr : list Z) : bool := existsb (Z.eqb i) fr.
Definition fresh_next (fr : list Z) (o : op F64) (r : res F64) : list Z :=
  match o, r with
  | OpGroup _ i _ _, _ => i :: fr
  | OpLoadGroup _ i _, Done _ _ _ => i :: fr
  | OpPAA _ i n, _ => if n <=? 0 then fr else filter (fun j => negb (j =? i)) fr
  | _, _ => fr
  end.
Section Checker.
Context (writable : string -> bool) (files : string -> option text).
Local Notation run := (run F64 F64_IO writable).
Local Notation step := (step F64 F64_IO writable).
Local Notation fresh := (fresh writable files).
Definition knows (fr : list Z) (past : list (op F64)) : Prop := forall i, In i fr -> fresh i past.
Lemma fresh_b_ok i fr past : knows fr past -> fresh_b i fr = true -> fresh i past.
Proof. intros K H. apply existsb_exists in H as (j & Hj & E). apply Z.eqb_eq in E. subst j. auto. Qed.
Lemma fresh_keep i past o : fresh i past -> match o with OpPAA _ j n => j <> i \/ n <= 0 | _ => True end -> fresh i (past ++ [o]).
Proof. intros (p1 & o1 & p2 & -> & R & F) H. exists p1, o1, (p2 ++ [o]). rewrite <- app_assoc. split; auto. split; auto. apply Forall_app. auto. Qed.
Lemma fresh_new i past o : regroups writable files i past o -> fresh i (past ++ [o]).
Proof. intros R. exists past, o, []. auto. Qed.
Lemma knows_next fr past s o : knows fr past -> run (st_init F64 files) past = Some s -> knows (fresh_next fr o (step s o)) (past ++ [o]).
Proof.
  intros K Hr i. assert (X : match o with OpPAA _ j n => j <> i \/ n <= 0 | _ => True end -> In i fr -> fresh i (past ++ [o])).
  { intros Ho Hi. apply fresh_keep; auto. }
  unfold fresh_next. destruct o; try (apply X; exact I).
  - intros [<-|Hi]; [|now apply X]. apply fresh_new. left. eauto.
  - destruct (step s (OpLoadGroup F64 i0 path)) as [s' v| | |] eqn:E; try (apply X; exact I).
    intros [<-|Hi]; [|now apply X]. apply fresh_new. right. exists path, s, s', v. auto.
  - destruct (Z.leb_spec n 0); [apply X; now right|]. intros Hi. apply filter_In in Hi as (Hi & Hn). apply X; auto. left. apply negb_true_iff in Hn. lia.
Qed.

Definition range (lo n : Z) : list Z := map (fun k => lo + Z.of_nat k) (seq 0 (Z.to_nat n)).
Lemma range_in lo n x : lo <= x < lo + n -> In x (range lo n).
Proof. intros H. apply in_map_iff. exists (Z.to_nat (x - lo)). split; [lia|]. apply in_seq. lia. Qed.

Definition cells_b (data : list spec_float) (count len : Z) : bool :=
  forallb (fun t => forallb (fun j => match zget data (t * len + j) with Ok x => small_b x | _ => false end) (range 0 len)) (range 0 count).
Definition other_b (cnt len : Z) (t : text) : bool :=
  match p_int t with
  | Some (v, t) => negb (v =? 1) || match p_thr t with
    | Some t => match p_int t with
      | Some (c, t) => match p_int t with Some (n, _) => negb (c =? cnt) || negb (n =? len) | None => false end
      | None => false end
    | None => false end
  | None => false end.
Lemma other_b_ok cnt len t : other_b cnt len t = true -> other_file cnt len t.
Proof.
  unfold other_b. intros H. destruct (p_int t) as [(v & t1)|] eqn:E1; [|discriminate]. apply p_int_ok in E1.
  destruct (Z.eqb_spec v 1) as [->|Hv]; [|left; eauto]. cbn [negb orb] in H. right.
  destruct (p_thr t1) as [t2|] eqn:E2; [|discriminate]. apply p_thr_ok in E2 as (thr & E2).
  destruct (p_int t2) as [(c & t3)|] eqn:E3; [|discriminate]. destruct (p_int t3) as [(n & t4)|] eqn:E4; [|discriminate]. apply p_int_ok in E3, E4.
  exists thr, c, n, t4. split; [exists t1, t2, t3; auto|]. destruct (Z.eqb_spec c cnt); [|now left]. destruct (Z.eqb_spec n len); [discriminate|now right].
Qed.
Definition safe_b (fr : list Z) (s : st F64) (o : op F64) : bool :=
  match o with
  | OpLoad _ p m c seps =>
      match st_files F64 s p with
      | None => true
      | Some t => match map (tokens seps) (rows_read m (lines t)) with [] => true | r :: _ => (0 <=? c) && (c <=? zlen r) end
      end
  | OpPAA _ i n =>
      match checkDatasetIndex F64 s i with Ok d => (n <=? 0) || (1 <=? set_len (ds_set F64 d)) | _ => true end
  | OpGroup _ i thr clock =>
      match checkDatasetIndex F64 s i with
      | Ok d => let len := set_len (ds_set F64 d) in
          fin_b thr && (len <=? 2 ^ 30) &&
          forallb (fun L => negb (clock L || (L =? 2)) || (5 <=? (len - L + 1) * set_count (ds_set F64 d))) (range 2 (len - 1))
      | _ => true
      end
  | OpSaveGroup _ i _ _ => fresh_b i fr
  | OpLoadGroup _ i p =>
      match checkDatasetIndex F64 s i, st_files F64 s p with
      | Ok d, Some t => let cnt := set_count (ds_set F64 d) in let len := set_len (ds_set F64 d) in
          other_b cnt len t || match set_buf (ds_set F64 d) with None => false | Some _ => (len <=? 2 ^ 30) && fitting_b cnt len t end
      | _, _ => true
      end
  | OpMatch _ r q ix a e =>
      match checkDatasetIndex F64 s r, checkDatasetIndex F64 s q with
      | Ok d, Ok dq =>
          match getTimeSeries F64 (ds_set F64 dq) ix a e with
          | Ok t => match ts_read F64 (st_heap F64 s) t, set_data F64 (st_heap F64 s) (ds_set F64 d) with
                    | Ok qv, Ok data => negb (isGrouped F64 d) || fresh_b r fr && (1 <=? set_count (ds_set F64 d)) && (zlen qv <=? set_len (ds_set F64 d)) &&
                        (set_len (ds_set F64 d) <=? 2 ^ 20) && forallb small_b qv && cells_b data (set_count (ds_set F64 d)) (set_len (ds_set F64 d))
                    | _, _ => false
                    end
          | _ => true
          end
      | _, _ => true
      end
  | OpSetRatio _ _ => false
  | _ => true
  end.
Lemma has_check (s : st F64) i d : has_dataset F64 s i d -> checkDatasetIndex F64 s i = Ok d.
Proof. intros H. now apply check_iff. Qed.
Lemma safe_b_ok fr past s o : knows fr past -> safe_b fr s o = true -> safe writable files past s o.
Proof.
  intros K. destruct o; cbn [safe_b safe]; intros H; auto.
  - intros contents first rest Hf Ht. rewrite Hf in H. apply table_rows in Ht. rewrite <- Ht in H. apply andb_true_iff in H. lia.
  - intros d Hd Hb. rewrite (has_check _ _ _ Hd) in H. cbv zeta in H. apply andb_true_iff in H as (H & H3). apply andb_true_iff in H as (H1 & H2).
    split; [now apply fin_b_ok|]. split; [lia|]. intros L HL Hc. rewrite forallb_forall in H3.
    assert (X := H3 L (range_in 2 (set_len (ds_set F64 d) - 1) L ltac:(lia))). apply orb_true_iff in X as [X|X]; [|lia]. apply negb_true_iff, orb_false_iff in X as (X1 & X2).
    destruct Hc as [Hc|Hc]; [congruence|lia].
  - intros d Hd Hg. eapply fresh_b_ok; eauto.
  - intros d t Hd Hf. rewrite (has_check _ _ _ Hd), Hf in H. cbv zeta in H. apply orb_true_iff in H as [H|H]; [left; now apply other_b_ok|].
    right. destruct (set_buf (ds_set F64 d)); [|discriminate]. apply andb_true_iff in H as (H1 & H2). split; [discriminate|]. split; [lia|]. now apply fitting_b_ok.
  - discriminate.
  - intros d qv Hd Hg Q Hq. rewrite (has_check _ _ _ Hd) in H. destruct (query_read F64 _ _ _ _ _ _ Q) as (dq & t & Cq & Gt & Rt & Lt & _).
    rewrite Cq, Gt, Rt in H. destruct (set_data F64 (st_heap F64 s) (ds_set F64 d)) as [data| | |] eqn:Ed; try discriminate.
    apply orb_true_iff in H as [H|H]; [unfold isGrouped in H; destruct (ds_groups F64 d); [discriminate|congruence]|].
    do 5 apply andb_prop in H as [H ?]. split; [eapply fresh_b_ok; eauto|]. split; [lia|]. split; [change (num F64) with spec_float in *; lia|]. split.
    + apply Forall_forall. intros x Hx. apply small_b_ok. eapply forallb_forall; eauto.
    + intros data' k j x (_ & b & Hb & Hh & _) (C1 & C2 & C3). unfold set_data in Ed. rewrite Hb, Hh in Ed. injection Ed as ->.
      unfold cells_b in H0. rewrite forallb_forall in H0. specialize (H0 k (range_in 0 (set_count (ds_set F64 d)) k ltac:(lia))). rewrite forallb_forall in H0.
      specialize (H0 j (range_in 0 (set_len (ds_set F64 d)) j ltac:(lia))). cbn beta in H0. change (num F64) with spec_float in *. rewrite C3 in H0. now apply small_b_ok.
  - intros d Hd. rewrite (has_check _ _ _ Hd) in H. apply orb_true_iff in H. lia.
Qed.
Fixpoint history_b (s : st F64) (fr : list Z) (ops : list (op F64)) : bool :=
  match ops with
  | [] => true
  | o :: l => safe_b fr s o && let r := step s o in match after F64 r with Some s' => history_b s' (fresh_next fr o r) l | None => true end
  end.
Lemma history_b_ok ops : history_b (st_init F64 files) [] ops = true -> safe_history writable files ops.
Proof.
  intros H past o rest s E R.
  assert (X : forall past before σ fr, run (st_init F64 files) before = Some σ -> knows fr before -> history_b σ fr (past ++ o :: rest) = true ->
     run σ past = Some s -> safe writable files (before ++ past) s o).
  { clear. induction past as [|p past IH]; intros before σ fr B K H R; cbn [app history_b Api.run] in *.
    - injection R as ->. rewrite app_nil_r. apply andb_true_iff in H as (H & _). eapply safe_b_ok; eauto.
    - apply andb_true_iff in H as (_ & H). cbv zeta in H. destruct (after F64 (step σ p)) as [σ'|] eqn:Ea; [|discriminate].
      specialize (IH (before ++ [p]) σ' (fresh_next fr p (step σ p))). rewrite <- app_assoc in IH. apply IH; auto.
      + rewrite run_app, B. cbn [Api.run]. now rewrite Ea.
      + now apply knows_next. }
  apply (X past [] (st_init F64 files) []); auto; [intros i []|]. now rewrite <- E.
Qed.
End Checker.

(** A session in which a dataset is loaded, grouped, searched, normalised and searched again with the old groups,
    saved, reduced, grouped again and searched again, and in which some calls throw. *)
Definition ex_file : string -> option text := fun p => if String.eqb p "a" then Some (list_ascii_of_string "1 2 4 3 1
2 1 0 5 2
0 3 3 1 2
") else None.
Definition ex_ops : list (op F64) :=
  [ OpMatch F64 0 0 0 0 2; OpLoad F64 "a" 0 0 [" "%char]; OpMatch F64 0 0 0 0 2;
    OpGroup F64 0 (f64_ofZ 1) (fun _ => false); OpMatch F64 0 0 0 1 4; OpNormalize F64 0; OpMatch F64 0 0 0 1 4;
    OpSaveGroup F64 0 "g" false; OpSave F64 0 "d" " "%char; OpPAA F64 0 2; OpPAA F64 0 0; OpGroup F64 0 (f64_ofZ 1) (fun _ => false);
    OpMatch F64 0 0 1 (-1) (-1); OpUnload F64 3; OpUnload F64 0 ].
Example C48_example : safe_history (fun p => negb (String.eqb p "a")) ex_file ex_ops.
Proof. apply history_b_ok. vm_compute. reflexivity. Qed.

(** A session in which groups are saved and loaded again, into the same dataset and into another one, searched, saved from there, and
    refused after a reduction. *)
Definition ex_file3 : string -> option text := fun p => if String.eqb p "a" then Some (list_ascii_of_string "1 2 4
2 1 0
0 3 3
") else if String.eqb p "v" then Some (list_ascii_of_string "2 0 3 3 ") else None.
Definition ex_ops3 : list (op F64) :=
  [ OpLoad F64 "a" 0 0 [" "%char]; OpGroup F64 0 (f64_ofZ 1) (fun _ => false); OpSaveGroup F64 0 "g" false; OpLoadGroup F64 0 "g"; OpMatch F64 0 0 1 0 2;
    OpLoad F64 "a" 0 0 [" "%char]; OpLoadGroup F64 1 "g"; OpMatch F64 1 0 0 (-1) (-1); OpNormalize F64 1; OpMatch F64 1 1 0 0 2;
    OpSaveGroup F64 1 "h" false; OpPAA F64 1 2; OpLoadGroup F64 1 "h"; OpLoadGroup F64 0 "v"; OpLoadGroup F64 0 "h"; OpMatch F64 0 1 0 (-1) (-1); OpLoadGroup F64 5 "g" ].
Example C48_reload_example : safe_history (fun p => negb (String.eqb p "a")) ex_file3 ex_ops3.
Proof. apply history_b_ok. vm_compute. reflexivity. Qed.
(** Which of these calls throw: the loads of a group file that does not fit, and the unknown dataset. *)
Definition outcomes (writable : string -> bool) : st F64 -> list (op F64) -> list bool :=
  fix go s ops := match ops with
  | [] => []
  | o :: l => match step F64 F64_IO writable s o with Done _ s' _ => true :: go s' l | Exn _ s' _ => false :: go s' l | _ => [] end
  end.
Example C48_reload_outcomes : outcomes (fun p => negb (String.eqb p "a")) (st_init F64 ex_file3) ex_ops3 =
  [true; true; true; true; true; true; true; true; true; true; true; true; false; false; true; true; false].
Proof. vm_compute. reflexivity. Qed.

(** Each condition of [safe] is needed: histories that break just one of them and are undefined or hang. *)
Definition undefined (files : string -> option text) (ops : list (op F64)) : bool :=
  match run F64 F64_IO (fun _ => true) (st_init F64 files) ops with None => true | Some _ => false end.
Definition ex_file2 (contents : string) : string -> option text := fun p => if String.eqb p "a" then Some (list_ascii_of_string contents) else ex_file "a".
Definition ex_load (c : Z) : op F64 := OpLoad F64 "a" 0 c [" "%char].
Definition ex_group (thr : spec_float) : op F64 := OpGroup F64 0 thr (fun _ => false).
Theorem C48_each_condition :
  (* start column *) undefined ex_file [ex_load (-1)] = true /\
  undefined ex_file [ex_load 6; OpNormalize F64 0] = true /\
  (* PAA of series without points *) undefined ex_file [ex_load 5; OpPAA F64 0 2] = true /\
  (* too few subsequences *) undefined (ex_file2 "1 2 3") [ex_load 0; ex_group (f64_ofZ 1)] = true /\
  (* ratio *) undefined ex_file [ex_load 0; ex_group (f64_ofZ 1); OpSetRatio F64 S754_nan; OpMatch F64 0 0 0 0 3] = true /\
  (* groups older than the reduction *) undefined ex_file [ex_load 0; ex_group (f64_ofZ 1); OpPAA F64 0 2; OpMatch F64 0 0 0 0 3] = true /\
  undefined ex_file [ex_load 0; ex_group (f64_ofZ 1); OpPAA F64 0 2; OpSaveGroup F64 0 "g" false] = true /\
  (* file that is not a group file *) undefined (ex_file2 "1 x") [OpLoad F64 "b" 0 0 [" "%char]; OpLoadGroup F64 0 "a"] = true /\
  (* query longer than the series *) undefined (ex_file2 "1 2 3 4 5 6 7") [OpLoad F64 "b" 0 0 [" "%char]; ex_load 0; ex_group (f64_ofZ 1); OpMatch F64 0 1 0 0 6] = true /\
  (* values that are not numbers *) undefined (ex_file2 "nan nan nan nan nan nan nan") [ex_load 0; ex_group (f64_ofZ 1); OpMatch F64 0 0 0 0 3] = true.
Proof. repeat split; vm_compute; reflexivity. Qed.

(** Group files that break one condition of [fitting_file], for a dataset with one series of three values: loaded, the groups are
    searched and saved.  The first file keeps all conditions. *)
Definition with_groups (contents : string) : string -> option text :=
  fun p => if String.eqb p "b" then Some (list_ascii_of_string "1 2 4") else if String.eqb p "a" then Some (list_ascii_of_string contents) else None.
Definition use_groups : list (op F64) :=
  [OpLoad F64 "b" 0 0 [" "%char]; OpLoadGroup F64 0 "a"; OpMatch F64 0 0 0 0 2; OpMatch F64 0 0 0 0 3; OpSaveGroup F64 0 "c" false].
Example C48_each_file_condition :
  undefined (with_groups "1 1 1 3 2 4 euclidean 1 0 0 2 0 0 0 1 1 0 0 0 1 0 0") use_groups = false /\
  (* no groups of the length 3 *) undefined (with_groups "1 1 1 3 2 4 euclidean 1 0 0 2 0 0 0 1 0 ") use_groups = true /\
  (* a member outside the dataset *) undefined (with_groups "1 1 1 3 2 4 euclidean 1 0 0 2 0 0 1 1 1 0 0 0 1 0 0") use_groups = true /\
  (* a member twice *) undefined (with_groups "1 1 1 3 2 4 euclidean 1 0 0 2 0 0 0 0 1 0 0 0 1 0 0") use_groups = true /\
  (* another distance *) undefined (with_groups "1 1 1 3 2 4 manhattan 1 0 0 2 0 0 0 1 1 0 0 0 1 0 0") use_groups = true /\
  (* no number for a representative *) undefined (with_groups "1 1 1 3 2 4 euclidean 1 0 0 2 0 0 0 1 1 0 nan 0 1 0 0") use_groups = true /\
  (* the file ends early *) undefined (with_groups "1 1 1 3 2 4 euclidean 1 0 0 2 0 0 0 1 ") use_groups = true.
Proof. repeat split; vm_compute; reflexivity. Qed.
