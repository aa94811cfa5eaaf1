(** * Properties C44 (identifiers), C45 (frame), C46 (unknown identifiers), C47 (failing operations).

    Stated for any arithmetic and any number printing and reading, so in particular for doubles.  [has_dataset],
    [reachable], [quiet], [unchanged] and [ids_of] are defined in GroupSpec.v. *)
From Coq Require Import ZArith Bool Lia SpecFloat String List Ascii Sorted.
From Verif Require Import Outcome Num Lemire Distance TimeSeries Text Dataset Groups Api F64Base.
From Verif Require Import TraverseProofs TsProofs GroupSpec GroupProofs GlobalGroup MatchProofs SimProofs Indep SessionProofs SessionMatch ApiProofs.
From Verif Require Import Properties_Groups Properties_Match Properties_Indep.
Import ListNotations.
Open Scope Z_scope.

Section Api.
Context (N : NumOps) (IO : NumIO N) (writable : string -> bool).
Local Notation st := (st N).
Local Notation check := (checkDatasetIndex N).
Local Notation has := (has_dataset N).
Local Notation step := (step N IO writable).
Local Notation reach := (reachable N IO writable).

Lemma has_check σ i d : has σ i d <-> check σ i = Ok d.
Proof. symmetry. apply check_iff. Qed.
Lemma run_inv (P : st -> Prop) : (forall σ o σ', P σ -> after N (step σ o) = Some σ' -> P σ') ->
  forall ops σ σ', P σ -> run N IO writable σ ops = Some σ' -> P σ'.
Proof.
  intros HP ops. induction ops as [|o ops IH]; intros σ σ' W E; cbn [run] in E; [now injection E as <-|].
  destruct (after N (step σ o)) as [s1|] eqn:A; [|discriminate]. eauto.
Qed.

(** Every reachable session is well formed: each loaded dataset has its own allocated data. *)
Theorem C45_reachable : forall σ, reach σ -> wf N σ.
Proof. intros σ (files & ops & E). eapply run_wf; eauto. apply init_wf. Qed.
Lemma reach_counted σ : reach σ -> counted N σ.
Proof. intros (files & ops & E). eapply (run_inv (counted N)); eauto; [intros; eapply step_counted; eauto|apply init_counted]. Qed.
Lemma reach_owners σ : reach σ -> owners N σ.
Proof.
  intros (files & ops & E). enough (wf N σ /\ owners N σ) by tauto. eapply (run_inv (fun s => wf N s /\ owners N s)); eauto.
  - intros s o s' (W & O) A. split; [eapply step_wf; eauto|eapply step_owners; eauto].
  - split; [apply init_wf|apply init_owners].
Qed.

(** ** C44: identifiers. *)
(** Loading gives the smallest identifier that is not in use; all other identifiers keep their dataset. *)
Theorem C44_load : forall (σ : st) p m c seps σ' v, step σ (OpLoad N p m c seps) = Done N σ' v ->
  exists n d, v = VInfo N (mkInfo n p (set_count (ds_set N d)) (set_len (ds_set N d)) false false) /\ 0 <= n /\
    has σ' n d /\ (forall e, ~ has σ n e) /\ (forall k, 0 <= k < n -> exists e, has σ k e) /\
    (forall j e, j <> n -> has σ' j e <-> has σ j e).
Proof.
  intros σ p m c seps σ' v E. cbn in E.
  apply load_inv in E as (d & contents & data & _ & _ & (_ & C1 & C2 & _ & _ & Eg & _) & Hn & Hp & -> & _).
  exists (Z.of_nat (first_free N (st_sets N σ))), d. destruct (first_free_spec N (st_sets N σ)) as (_ & F2 & F3).
  split; [|split; [lia|split; [now apply has_check|split; [|split]]]].
  - f_equal. unfold info_of. now rewrite Hn, Hp; unfold isGrouped; rewrite Eg.
  - intros e (_ & H). rewrite Nat2Z.id in H. rewrite F3 in H; [discriminate|]. apply nth_error_Some. congruence.
  - intros k Hk. destruct (F2 (Z.to_nat k)) as (e & He); [lia|]. exists e. split; [lia|auto].
  - intros j e Hj. rewrite !has_check, C2; auto. tauto.
Qed.
(** Unloading removes exactly that identifier. *)
Theorem C44_unload : forall (σ : st) i d, has σ i d -> exists σ', step σ (OpUnload N i) = Done N σ' (VUnit N) /\
  (forall e, ~ has σ' i e) /\ forall j e, j <> i -> has σ' j e <-> has σ j e.
Proof.
  intros σ i d H. apply has_check in H. cbn.
  destruct (api_unload N σ i) as [σ' v|s e| |] eqn:E; try (unfold api_unload in E; rewrite H in E; discriminate E).
  apply unload_inv in E as (d' & C & C1 & C2 & _ & _ & -> & _). exists σ'. split; auto. split.
  - intros e He. apply has_check in He. congruence.
  - intros j e Hj. rewrite !has_check, C2; auto. tauto.
Qed.
Theorem C44_unload_all : forall (σ : st), exists σ', step σ (OpUnloadAll N) = Done N σ' (VUnit N) /\ forall i e, ~ has σ' i e.
Proof.
  intros σ. eexists. split; [reflexivity|]. intros i e (_ & H). cbn in H. destruct (Z.to_nat i); discriminate H.
Qed.
Lemma has_put σ i d d' : has σ i d -> forall j, (exists e, has (put_set N σ i (Some d')) j e) <-> (exists e, has σ j e).
Proof.
  intros (H0 & H) j. unfold has_dataset. cbn [put_set with_sets st_sets]. destruct (Z.eq_dec j i) as [->|Hn].
  - split; intros _; eauto. exists d'. split; auto. rewrite list_set_nth_error_eq; auto. apply nth_error_Some. congruence.
  - split; intros (e & H1 & H2); exists e; (split; [auto|]); [rewrite list_set_nth_error_neq in H2 by lia|rewrite list_set_nth_error_neq by lia]; auto.
Qed.
(** No other operation changes which identifiers are in use. *)
Definition loads_or_unloads (o : op N) : Prop :=
  match o with OpLoad _ _ _ _ _ | OpUnload _ _ | OpUnloadAll _ => True | _ => False end.
Theorem C44_others : forall (σ : st) o σ', ~ loads_or_unloads o -> after N (step σ o) = Some σ' ->
  forall j, (exists e, has σ' j e) <-> (exists e, has σ j e).
Proof.
  intros σ o σ' Ho A.
  assert (Id : forall j, (exists e, has σ j e) <-> (exists e, has σ j e)) by tauto.
  destruct (step σ o) as [s v|s e| |] eqn:E; cbn in A; try discriminate; injection A as ->.
  - destruct o; cbn [loads_or_unloads] in Ho; try tauto; cbn [Api.step] in E.
    + unfold api_save in E. apply lift_done in E as (d & _ & E). destruct (negb _); [discriminate|].
      apply lift_done in E as (t & _ & E). injection E as <- _. exact Id.
    + injection E as <- _. exact Id.
    + unfold api_info in E. apply lift_done in E as (d & _ & E). injection E as <- _. exact Id.
    + injection E as <- _. exact Id.
    + unfold api_normalize in E. apply lift_done in E as (d & C & E). apply lift_done in E as (((h & s) & (mn & mx)) & _ & E).
      injection E as <- _. apply has_check in C. exact (has_put (with_heap N σ h) i d _ C).
    + unfold api_group in E. apply lift_done in E as (d & C & E). destruct (negb _); [discriminate|]. cbn zeta in E.
      destruct (global_group N _ _ _ _ _ _) as [(gs & n)|x| |]; try discriminate. injection E as <- _. apply has_check in C.
      pose proof (has_put σ i d (mkDS N (ds_set N d) (Some gs) (Some threshold)) C) as X. destruct (2 <=? _); exact X.
    + unfold api_saveGroup in E. apply lift_done in E as (d & _ & E). destruct (ds_groups N d); [|discriminate].
      destruct (negb _); [discriminate|]. apply lift_done in E as (thr & _ & E). apply lift_done in E as (t & _ & E). injection E as <- _. exact Id.
    + unfold api_loadGroup in E. apply lift_done in E as (d & C & E). destruct (st_files N σ path); [|discriminate].
      apply lift_done in E as ((fin & thr) & _ & E). apply lift_done in E as ((gs & r) & _ & E). destruct r; [|discriminate].
      injection E as <- _. apply has_check in C. exact (has_put σ i d _ C).
    + injection E as <- _. exact Id.
    + apply match_inv in E as (d & gs & gs' & c & dq & q & C & _ & _ & _ & _ & -> & _). apply has_check in C. exact (has_put σ result_idx d _ C).
    + unfold api_PAA in E. apply lift_done in E as (d & C & E). apply lift_done in E as ((h & s) & _ & E).
      injection E as <- _. apply has_check in C. exact (has_put (with_heap N σ h) i d _ C).
  - destruct o; try (apply step_exn in E as [->|[(? & ? & X)|((? & ? & ? & X) & _)]]; [exact Id|discriminate X|discriminate X]).
    + cbn [Api.step] in E. unfold api_group in E. apply lift_exn in E as [(_ & ->)|(d & C & E)]; auto.
      destruct (negb _); [injection E as <- _; exact Id|]. cbn zeta in E.
      destruct (global_group N _ _ _ _ _ _) as [(gs & n)|x| |]; try discriminate. injection E as <- _. apply has_check in C. exact (has_put σ i d _ C).
    + cbn [Api.step] in E. unfold api_loadGroup in E. apply lift_exn in E as [(_ & ->)|(d & C & E)]; auto.
      destruct (st_files N σ path); [|injection E as <- _; exact Id].
      apply lift_exn in E as [(_ & ->)|((fin & thr) & _ & E)]; auto. apply lift_exn in E as [(_ & ->)|((gs & r) & _ & E)]; auto.
      destruct r; [discriminate|]. injection E as <- _. apply has_check in C. exact (has_put σ i d _ C).
Qed.
(** After an exception the same identifiers are in use ([C44_others] covers the other operations). *)
Theorem C44_failed_load : forall (σ : st) o σ' e, loads_or_unloads o -> step σ o = Exn N σ' e -> σ' = σ.
Proof. intros σ o σ' e Ho E. apply step_exn in E as [->|[(? & ? & ->)|((? & ? & ? & ->) & _)]]; auto; destruct Ho. Qed.
(** getAllDatasetInfo lists exactly the loaded datasets, by increasing identifier. *)
Theorem C44_list : forall (σ : st), exists l, step σ (OpAllInfo N) = Done N σ (VInfos N l) /\
  Sorted Z.lt (map i_id l) /\
  forall x, In x l <-> exists d, has σ (i_id x) d /\ i_name x = set_path (ds_set N d) /\ i_count x = set_count (ds_set N d) /\
    i_length x = set_len (ds_set N d) /\ (i_grouped x = true <-> ds_groups N d <> None) /\ i_normalized x = set_norm (ds_set N d).
Proof.
  intros σ. eexists. split; [reflexivity|]. destruct (all_infos_spec N (st_sets N σ) 0) as (S1 & S2 & _). split; auto.
  intros x. rewrite S2. split.
  - intros (k & d & H & ->). exists d. cbn. unfold has_dataset. rewrite Nat2Z.id. split; [split; [lia|auto]|]. do 3 (split; [auto|]).
    split; auto. unfold isGrouped. destruct (ds_groups N d); split; congruence.
  - intros (d & (H0 & H) & E1 & E2 & E3 & E4 & E5). exists (Z.to_nat (i_id x)), d. split; auto. destruct x as [ix nm cn ln gr no]. cbn in *.
    unfold info_of. rewrite Z2Nat.id by auto. rewrite E1, E2, E3, E5. f_equal. unfold isGrouped.
    destruct (ds_groups N d), gr; auto; [destruct (proj2 E4); congruence|destruct (proj1 E4); congruence].
Qed.
(** getDatasetCount is the number of loaded datasets, in every reachable session. *)
Theorem C44_count : forall (σ : st), reach σ -> exists ids, NoDup ids /\ (forall i, In i ids <-> exists d, has σ i d) /\
  step σ (OpCount N) = Done N σ (VInt N (zlen ids)).
Proof.
  intros σ R. apply reach_counted in R. destruct (all_infos_spec N (st_sets N σ) 0) as (S1 & S2 & S3).
  exists (map i_id (all_infos N 0 (st_sets N σ))). split; [|split].
  - apply Sorted_StronglySorted in S1; [|intros ? ? ?; lia]. induction S1 as [|a l S IH F]; constructor; auto.
    intros Ha. rewrite Forall_forall in F. apply F in Ha. lia.
  - intros i. rewrite in_map_iff. split.
    + intros (x & <- & Hx). apply S2 in Hx as (k & d & H & ->). exists d. cbn. split; [lia|]. now rewrite Nat2Z.id.
    + intros (d & H0 & H). exists (info_of N i d). split; auto. apply S2. exists (Z.to_nat i), d. split; auto. f_equal. lia.
  - cbn. unfold api_count, Api.api_count. f_equal. f_equal. unfold zlen in *. rewrite map_length, S3. exact R.
Qed.

(** ** C45: an operation that is not addressed to dataset [i] leaves it as it was; matches and saves, even
    addressed to [i], do. *)
Lemma same_groups_refl h h' d gs σ : Forall (cent_src N (src_ok N σ d)) (gs_spaces N gs) -> st_heap N σ = h ->
  (forall b, set_buf (ds_set N d) = Some b -> heap_get N h' b = heap_get N h b) -> freed_mono N h h' ->
  same_groups N h h' (ds_set N d) gs gs.
Proof.
  intros F <- Hb Hf. split; auto. split; auto. intros L. destruct (zget (gs_spaces N gs) L) as [[ls|]| | |] eqn:E; auto.
  split; auto. intros k g g' G G'. assert (g' = g) by congruence. subst g'. split; auto. split; auto.
  unfold zget in E. destruct (L <? 0); [discriminate|]. destruct (nth_error _ _) as [o|] eqn:En; [|discriminate]. injection E as ->.
  apply nth_error_In in En. rewrite Forall_forall in F. specialize (F _ En). cbn in F. unfold getGroup in G.
  assert (Hg : src_ok N σ d (ts_src (g_centroid N g))).
  { destruct (_ || _); [discriminate|]. unfold zget in G. destruct (k <? 0); [discriminate|]. destruct (nth_error (ls_groups N ls) _) as [g1|] eqn:Eg; [|discriminate].
    injection G as ->. apply nth_error_In in Eg. rewrite Forall_forall in F. exact (F _ Eg). }
  unfold ts_read. destruct (ts_src (g_centroid N g)) as [b base|w|]; auto. cbn in Hg.
  assert (X : heap_get N (st_heap N σ) b = heap_get N h' b).
  { destruct Hg as [Hg|Hg]; [now rewrite Hb|]. unfold heap_get. now rewrite (Hf _ Hg), Hg. }
  now rewrite X.
Qed.
Lemma same_groups_sim h s gs gs' : gspsim N h gs gs' -> same_groups N h h s gs gs'.
Proof.
  intros (E1 & _ & F). split; auto. split; [exact (Forall2_zlen _ _ _ F)|]. intros L.
  assert (X : match zget (gs_spaces N gs) L, zget (gs_spaces N gs') L with
     | Ok (Some ls), Ok (Some ls') => lsim N h ls ls' | o, o' => o = o' end).
  { unfold zget. destruct (L <? 0); auto. generalize (Z.to_nat L). clear - F. induction F as [|o o' l l' Ho F IH]; intros [|n]; cbn; auto.
    - destruct o, o'; cbn in Ho; tauto. - apply IH. }
  destruct (zget (gs_spaces N gs) L) as [[ls|]| | |], (zget (gs_spaces N gs') L) as [[ls'|]| | |]; auto.
  destruct X as (L1 & L2 & L3 & G). split.
  - exact (Forall2_zlen _ _ _ G).
  - intros k g g'. unfold getGroup. destruct (_ || _); [discriminate|]. destruct (_ || _); [discriminate|].
    unfold zget. destruct (k <? 0); [discriminate|]. intros Hg Hg'.
    assert (Y : gsim N h g g').
    { revert Hg Hg'. generalize (Z.to_nat k). clear - G. induction G as [|o o' l l' Ho F IH]; intros [|n]; cbn; try discriminate.
      - congruence. - apply IH. }
    destruct Y as (Y1 & Y2 & Y3 & Y4 & Y5 & (Y6 & _)). split; auto. split; [now apply same_read|].
    unfold getMembers. now rewrite L3, Y2, Y3, Y4.
Qed.
Lemma unchanged_frame σ σ' i : owners N σ -> freed_mono N (st_heap N σ) (st_heap N σ') -> keeps N σ σ' i -> unchanged N σ σ' i.
Proof.
  intros O F K d H. apply has_check in H. destruct (K d H) as (H' & Hb). exists d. split; [now apply has_check|]. do 2 (split; [auto|]).
  split; auto. destruct (ds_groups N d) as [gs|] eqn:Eg; auto. eapply same_groups_refl; eauto.
Qed.
Lemma freed_refl h : freed_mono N h h.
Proof. intros b H. exact H. Qed.

Lemma step_freed σ o i σ' : quiet N i o -> after N (step σ o) = Some σ' -> freed_mono N (st_heap N σ) (st_heap N σ').
Proof.
  intros Q A. pose proof (freed_refl (st_heap N σ)) as Fr.
  destruct (step σ o) as [s v|s e| |] eqn:E; cbn in A; try discriminate; injection A as ->.
  - destruct o; cbn [Api.step] in E.
    + apply load_inv in E as (d & _ & _ & _ & _ & (_ & _ & _ & (l & -> & _) & _) & _). apply freed_app.
    + unfold api_save in E. apply lift_done in E as (d & _ & E). destruct (negb _); [discriminate|].
      apply lift_done in E as (t & _ & E). injection E as <- _. exact Fr.
    + apply unload_inv in E as (d & _ & _ & _ & -> & _). apply freed_hfree.
    + destruct Q.
    + injection E as <- _. exact Fr.
    + unfold api_info in E. apply lift_done in E as (d & _ & E). injection E as <- _. exact Fr.
    + injection E as <- _. exact Fr.
    + unfold api_normalize in E. apply lift_done in E as (d & C & E). apply lift_done in E as (((h & s) & (mn & mx)) & En & E).
      injection E as <- _. apply normalize_inv in En as (b & old & new & _ & Ho & -> & _). cbn. eapply freed_set; eauto.
    + unfold api_group in E. apply lift_done in E as (d & C & E). destruct (negb _); [discriminate|]. cbn zeta in E.
      destruct (global_group N _ _ _ _ _ _) as [(gs & n)|x| |]; try discriminate. injection E as <- _. destruct (2 <=? _); exact Fr.
    + unfold api_saveGroup in E. apply lift_done in E as (d & _ & E). destruct (ds_groups N d); [|discriminate].
      destruct (negb _); [discriminate|]. apply lift_done in E as (thr & _ & E). apply lift_done in E as (t & _ & E). injection E as <- _. exact Fr.
    + unfold api_loadGroup in E. apply lift_done in E as (d & C & E). destruct (st_files N σ path); [|discriminate].
      apply lift_done in E as ((fin & thr) & _ & E). apply lift_done in E as ((gs & r) & _ & E). destruct r; [|discriminate].
      injection E as <- _. exact Fr.
    + injection E as <- _. exact Fr.
    + apply match_inv in E as (d & gs & gs' & c & dq & q & C & _ & _ & _ & _ & -> & _). exact Fr.
    + unfold api_PAA in E. apply lift_done in E as (d & C & E). apply lift_done in E as ((h & s) & En & E).
      injection E as <- _. apply PAA_inv in En as (new & -> & _). cbn. eapply freed_trans; [apply freed_hfree|apply freed_app].
  - destruct o; try (apply step_exn in E as [->|[(? & ? & X)|((? & ? & ? & X) & _)]]; [exact Fr|discriminate X|discriminate X]).
    + cbn [Api.step] in E. unfold api_group in E. apply lift_exn in E as [(_ & ->)|(d & C & E)]; auto.
      destruct (negb _); [injection E as <- _; exact Fr|]. cbn zeta in E.
      destruct (global_group N _ _ _ _ _ _) as [(gs & n)|x| |]; try discriminate. injection E as <- _. exact Fr.
    + cbn [Api.step] in E. unfold api_loadGroup in E. apply lift_exn in E as [(_ & ->)|(d & C & E)]; auto.
      destruct (st_files N σ path); [|injection E as <- _; exact Fr].
      apply lift_exn in E as [(_ & ->)|((fin & thr) & _ & E)]; auto. apply lift_exn in E as [(_ & ->)|((gs & r) & _ & E)]; auto.
      destruct r; [discriminate|]. injection E as <- _. exact Fr.
Qed.

Theorem C45_frame : forall (σ : st) o i σ', reach σ -> quiet N i o -> after N (step σ o) = Some σ' -> unchanged N σ σ' i.
Proof.
  intros σ o i σ' R Q A. pose proof (C45_reachable _ R) as W. pose proof (reach_owners _ R) as O.
  pose proof (step_freed _ _ _ _ Q A) as F. destruct (step_wf N IO writable σ o σ' W A) as (_ & K).
  assert (D : match_target N o <> Some i \/ match_target N o = Some i).
  { destruct (match_target N o) as [j|]; [|left; discriminate]. destruct (Z.eq_dec j i); [right|left]; congruence. }
  destruct D as [D|D]; [apply unchanged_frame; auto|].
  destruct o; try discriminate D. injection D as ->. cbn [Api.step] in A.
  destruct (api_match N σ i query_idx index start end_) as [s1 v|s1 e| |] eqn:E; cbn in A; try discriminate; injection A as ->.
  - apply match_inv in E as (d & gs & gs' & c & dq & q & C & _ & _ & Eg & Em & -> & _).
    intros d1 H1. apply has_check in H1. assert (d1 = d) by congruence. subst d1. eexists. split.
    { apply has_check. apply check_put. exact (proj1 (check_inv N _ _ _ C)). }
    do 2 (split; [reflexivity|]). split; [reflexivity|]. rewrite Eg. cbn [ds_groups]. apply same_groups_sim. eapply match_sim; eauto.
  - apply (step_exn N IO writable σ (OpMatch N i query_idx index start end_)) in E as [->|[(? & ? & X)|((? & ? & ? & X) & _)]]; try discriminate X.
    intros d H. exists d. split; auto. do 2 (split; [reflexivity|]). split; auto.
    apply has_check in H. destruct (ds_groups N d) as [gs|]; auto. apply same_groups_sim, gspsim_refl.
Qed.

(** ** C46 *)
Theorem C46_unknown_ids : forall (σ : st) o i, In i (ids_of N o) -> (forall d, ~ has σ i d) ->
  step σ o = Exn N σ (OnexExn "There is no dataset with given index").
Proof.
  intros σ o i Hi Hn.
  assert (C : check σ i = Throw (OnexExn "There is no dataset with given index")).
  { rewrite check_slot. destruct (Z.ltb_spec i 0); auto. destruct (nth_error (st_sets N σ) (Z.to_nat i)) as [[d|]|] eqn:E; auto.
    destruct (Hn d). split; auto. }
  destruct o; cbn in Hi; try (destruct Hi as [->|Hi]; [|try destruct Hi]); try tauto; cbn [Api.step];
    unfold api_save, api_unload, api_info, api_normalize, api_group, api_saveGroup, api_loadGroup, api_match, api_PAA, getDatasetInfo;
    rewrite ?C; auto.
  subst query_idx. rewrite check_slot. destruct (if result_idx <? 0 then _ else _) as [[d|]|]; cbn [lift]; rewrite ?C; auto.
Qed.

(** ** C47 *)
Theorem C47_failing_operations : forall (σ : st) o σ' m, (forall i p, o <> OpLoadGroup N i p) ->
  step σ o = Exn N σ' (OnexExn m) -> σ' = σ.
Proof.
  intros σ o σ' m Ho E. apply step_exn in E as [->|[(i & p & ->)|(_ & [])]]; auto. now destruct (Ho i p).
Qed.
End Api.

(** ** C54: grouping a dataset whose item length is below -1 (start column beyond the columns, C38) throws
    std::length_error, not an OnexException, and leaves the dataset marked as grouped with no group spaces; a
    match against it is then undefined behaviour.  The other part of the session is as before. *)
Theorem C54_group_negative_length : forall N (σ : st N) i thr clock d,
  has_dataset N σ i d -> set_buf (ds_set N d) <> None -> set_len (ds_set N d) <= -2 ->
  exists σ' gs, api_group N σ i thr clock = Exn N σ' (LogicExn "std::length_error") /\
    has_dataset N σ' i (mkDS N (ds_set N d) (Some gs) (ds_thr N d)) /\ gs_spaces N gs = [] /\
    st_heap N σ' = st_heap N σ /\ st_ratio N σ' = st_ratio N σ /\
    forall j e, j <> i -> has_dataset N σ' j e <-> has_dataset N σ j e.
Proof.
  intros N σ i thr clock d H Hb Hl. apply has_check in H. pose proof (proj1 (check_inv N _ _ _ H)) as Hr. eexists. exists (mkGS N [] "euclidean" (Some DPairwise)).
  split; [|split; [|split; [|split; [|split]]]].
  - unfold api_group. rewrite H. cbn [lift]. unfold isLoaded. destruct (set_buf (ds_set N d)); [|congruence]. cbn [negb].
    unfold global_group, resize_null. change (getDistance "euclidean") with (Ok DPairwise). cbn [bind].
    destruct (Z.ltb_spec (set_len (ds_set N d) + 1) 0); [|lia]. cbn [bind]. reflexivity.
  - apply has_check. apply check_put. exact Hr.
  - reflexivity.
  - reflexivity.
  - reflexivity.
  - intros j e Hj. rewrite !has_check, check_put_other; auto; tauto.
Qed.
Lemma no_spaces_match (σ : st F64) i d gs q ix a e qv :
  has_dataset F64 σ i d -> ds_groups F64 d = Some gs -> gs_spaces F64 gs = [] ->
  query_is F64 σ q ix a e qv -> 2 <= zlen qv <= 2 ^ 26 -> ratio_ok64 (st_ratio F64 σ) (zlen qv) ->
  api_match F64 σ i q ix a e = Bad F64 OutOfBounds.
Proof.
  intros H Hg Hs Q Hql Hr. apply has_check in H.
  destruct (query_read F64 _ _ _ _ _ _ Q) as (dq & tq & Cq & Gt & Rt & Lt & Ct).
  destruct (band_fun64 _ _ Hr ltac:(lia)) as (bw & (B & _)).
  unfold api_match. rewrite H. cbn [lift]. rewrite Cq. cbn [lift]. rewrite Gt. cbn [lift]. rewrite Hg.
  unfold global_getBestMatch. rewrite Lt. destruct (Z.leb_spec (zlen qv) 1); [lia|]. rewrite Hs.
  assert (Hb : forall k, 1 <= k <= Z.max (zlen qv) (zlen (A:=option (lspace F64)) [] - 1) -> calculateWarpingBandSize F64 (st_ratio F64 σ) k = Ok (bw k))
    by (intros k Hk; apply B; change (zlen []) with 0 in Hk; change (num F64) with spec_float in *; lia).
  destruct (traverse_inv F64 (st_ratio F64 σ) (zlen qv) (zlen (A:=option (lspace F64)) [] - 1) bw ltac:(lia) Hb) as (order & E & _).
  destruct (traverse_sound F64 (st_ratio F64 σ) (zlen qv) (zlen (A:=option (lspace F64)) [] - 1) bw ltac:(lia) Hb order E) as (Hhd & _).
  rewrite E. cbn [bind]. destruct order as [|x order]; [discriminate|]. injection Hhd as ->.
  cbn [for_each]. unfold global_match_step at 1. rewrite zget_out by (apply (zlen_nonneg qv)). reflexivity.
Qed.
Theorem C54_match_after : forall (σ σ' : st F64) i thr clock d err q ix a e qv,
  has_dataset F64 σ i d -> set_buf (ds_set F64 d) <> None -> set_len (ds_set F64 d) <= -2 ->
  api_group F64 σ i thr clock = Exn F64 σ' err ->
  query_is F64 σ' q ix a e qv -> 2 <= zlen qv <= 2 ^ 26 -> ratio_ok64 (st_ratio F64 σ') (zlen qv) ->
  api_match F64 σ' i q ix a e = Bad F64 OutOfBounds.
Proof.
  intros σ σ' i thr clock d err q ix a e qv H Hb Hl E Q Hq Hr.
  destruct (C54_group_negative_length F64 σ i thr clock d H Hb Hl) as (s & gs & E' & H' & Hs & _).
  rewrite E in E'. injection E' as -> _. eapply no_spaces_match; eauto. reflexivity.
Qed.

(** ** Cases.  Two files, two datasets; the first is unloaded, the second grouped and searched. *)
Definition ex_line (s : string) : text := T_ s ++ [nl].
Definition ex_files (p : string) : option text :=
  if String.eqb p "a" then Some (ex_line "1 2 3" ++ ex_line "4 5 6")
  else if String.eqb p "b" then Some (ex_line "1 2" ++ ex_line "5 6" ++ ex_line "9 7" ++ ex_line "1 2.5" ++ ex_line "0 0")
  else None.
Definition ex_ops : list (op F64) :=
  [OpLoad F64 "a" 0 0 (T_ " "); OpLoad F64 "b" 0 0 (T_ " "); OpLoad F64 "a" 1 0 (T_ " "); OpUnload F64 0;
   OpGroup F64 1 (f64_ofZ 1) (fun _ => false); OpMatch F64 1 2 0 0 2].
Definition ex_run : option (st F64) := run F64 F64_IO (fun _ => true) (st_init F64 ex_files) ex_ops.
Definition ex_true (p : st F64 -> bool) : bool := match ex_run with Some σ => p σ | None => false end.
Lemma ex_true_spec p : ex_true p = true -> exists σ, reachable F64 F64_IO (fun _ => true) σ /\ p σ = true.
Proof.
  unfold ex_true. destruct ex_run as [σ|] eqn:E; [|discriminate]. intros H. exists σ. split; auto. exists ex_files, ex_ops. exact E.
Qed.
Definition ex_slot (σ : st F64) (i : nat) : option (dset F64) := match nth_error (st_sets F64 σ) i with Some o => o | None => None end.
Definition ex_grouped_b (σ : st F64) (i : nat) : bool :=
  match ex_slot σ i with
  | Some d => match ds_groups F64 d with Some gs => 0 <? zlen (gs_spaces F64 gs) | None => false end
  | None => false end.
Definition is_done (r : res F64) : bool := match r with Done _ _ _ => true | _ => false end.
(** Identifiers 1 and 2 are in use, 0 is free and loading succeeds (C44); dataset 1 is grouped, and normalizing
    dataset 2 succeeds (C45). *)
Example C44_case : exists σ, reachable F64 F64_IO (fun _ => true) σ /\
  negb (is_some (ex_slot σ 0)) && is_some (ex_slot σ 1) && is_some (ex_slot σ 2) && ex_grouped_b σ 1 &&
  is_done (step F64 F64_IO (fun _ => true) σ (OpLoad F64 "b" 0 0 (T_ " "))) &&
  is_done (step F64 F64_IO (fun _ => true) σ (OpNormalize F64 2)) = true.
Proof. apply ex_true_spec. vm_compute. reflexivity. Qed.
(** An OnexException that leaves the session unchanged: grouping is asked for an identifier not in use, a save
    goes to a path that cannot be opened. *)
Example C46_C47_case : exists σ, reachable F64 F64_IO (fun _ => true) σ /\ (forall d, ~ has_dataset F64 σ 0 d) /\
  exists d, has_dataset F64 σ 1 d /\
  step F64 F64_IO (fun _ => false) σ (OpSave F64 1 "x" " "%char) = Exn F64 σ (OnexExn "Cannot open x").
Proof.
  destruct (ex_true_spec (fun σ => negb (is_some (ex_slot σ 0)) && is_some (ex_slot σ 1))) as (σ & R & H); [vm_compute; reflexivity|].
  exists σ. split; auto. apply andb_prop in H as (H0 & H1). unfold ex_slot in H0, H1. split.
  - intros d (_ & X). change (Z.to_nat 0) with 0%nat in X. rewrite X in H0. discriminate H0.
  - destruct (nth_error (st_sets F64 σ) 1) as [[d|]|] eqn:E; try discriminate H1. exists d.
    assert (C : checkDatasetIndex F64 σ 1 = Ok d) by (apply check_iff; split; [lia|exact E]).
    split; [now apply has_check|]. cbn [step]. unfold api_save. rewrite C. reflexivity.
Qed.
(** A dataset of item length -2: a start column two beyond the columns. *)
Definition ex_neg_ops : list (op F64) := [OpLoad F64 "a" 0 5 (T_ " "); OpLoad F64 "a" 0 0 (T_ " ")].
Definition ex_neg (σ : st F64) : bool :=
  match ex_slot σ 0, ex_slot σ 1 with
  | Some d, Some dq => is_some (set_buf (ds_set F64 d)) && (set_len (ds_set F64 d) =? -2) && (set_len (ds_set F64 dq) =? 3)
  | _, _ => false end.
Example C54_case : exists σ d, reachable F64 F64_IO (fun _ => true) σ /\
  has_dataset F64 σ 0 d /\ set_buf (ds_set F64 d) <> None /\ set_len (ds_set F64 d) = -2 /\
  exists dq, has_dataset F64 σ 1 dq /\ set_len (ds_set F64 dq) = 3.
Proof.
  assert (H : match run F64 F64_IO (fun _ => true) (st_init F64 ex_files) ex_neg_ops with Some σ => ex_neg σ | None => false end = true)
    by (vm_compute; reflexivity).
  destruct (run F64 F64_IO (fun _ => true) (st_init F64 ex_files) ex_neg_ops) as [σ|] eqn:E; [|discriminate]. exists σ.
  assert (R : reachable F64 F64_IO (fun _ => true) σ) by (exists ex_files, ex_neg_ops; exact E). clear E. unfold ex_neg, ex_slot in H.
  destruct (nth_error (st_sets F64 σ) 0) as [[d|]|] eqn:E0; try discriminate H.
  destruct (nth_error (st_sets F64 σ) 1) as [[dq|]|] eqn:E1; try discriminate H.
  apply andb_prop in H as (H & H2). apply andb_prop in H as (H0 & H1). exists d. split; auto. split; [split; [lia|exact E0]|].
  split; [destruct (set_buf (ds_set F64 d)); [discriminate|discriminate H0]|]. split; [lia|]. exists dq. split; [split; [lia|exact E1]|lia].
Qed.
