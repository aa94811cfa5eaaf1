(** * Memory of sessions: what each call does to the arrays of the datasets. *)
From Coq Require Import ZArith Bool Lia String List Ascii.
From Verif Require Import Outcome Num Distance TimeSeries Text Dataset Groups Api.
From Verif Require Import TsProofs GroupSpec GroupProofs GlobalGroup MatchProofs SimProofs SessionProofs SessionMatch ApiProofs LifeSpec.
Import ListNotations.
Open Scope Z_scope.

Section Life.
Context (N : NumOps) (IO : NumIO N) (writable : string -> bool).
Local Notation st := (st N).
Local Notation check := (checkDatasetIndex N).
Local Notation step := (step N IO writable).
Local Notation run := (run N IO writable).
Local Notation frees := (frees N).
Local Notation freed_in := (freed_in N IO writable).

(** Dataset [i] is replaced by [d'], and nothing else is. *)
Definition put (σ σ' : st) (i : Z) (d' : dset N) : Prop := check σ' i = Ok d' /\ forall j, j <> i -> check σ' j = check σ j.
Lemma put_put σ h i d d' : check σ i = Ok d -> put σ (put_set N (with_heap N σ h) i (Some d')) i d'.
Proof.
  intros C. apply check_inv in C as (Hr & C). split.
  - apply check_put. exact Hr.
  - intros j Hj. rewrite check_put_other; auto; lia.
Qed.
(** OnexAPI.cpp:70-78: the arrays of all datasets are freed. *)
Definition free_all (l : list (option (dset N))) (h : heap N) : heap N :=
  fold_left (fun h o => match o with Some d => hfree N h (set_buf (ds_set N d)) | None => h end) l h.

(** What a call can do. *)
Inductive effect (σ σ' : st) : op N -> Prop :=
| EffSame o : same_sets N σ σ' -> effect σ σ' o
| EffGroups o i d d' : check σ i = Ok d -> ds_set N d' = ds_set N d -> st_heap N σ' = st_heap N σ -> put σ σ' i d' -> effect σ σ' o
| EffLoad p m c seps n d : loaded N σ σ' n d -> effect σ σ' (OpLoad N p m c seps)
| EffUnload i d : check σ i = Ok d -> (forall d', check σ' i <> Ok d') -> (forall j, j <> i -> check σ' j = check σ j) ->
    st_heap N σ' = hfree N (st_heap N σ) (set_buf (ds_set N d)) -> effect σ σ' (OpUnload N i)
| EffAll : st_sets N σ' = [] -> st_heap N σ' = free_all (st_sets N σ) (st_heap N σ) -> effect σ σ' (OpUnloadAll N)
| EffNormalize i d d' b old new : check σ i = Ok d -> set_buf (ds_set N d) = Some b -> heap_get N (st_heap N σ) b = Ok old ->
    set_buf (ds_set N d') = Some b -> set_len (ds_set N d') = set_len (ds_set N d) -> set_count (ds_set N d') = set_count (ds_set N d) ->
    st_heap N σ' = list_set (st_heap N σ) b (Some new) -> put σ σ' i d' -> effect σ σ' (OpNormalize N i)
| EffPAA i n d d' new : 1 <= n -> check σ i = Ok d -> set_buf (ds_set N d') = Some (length (st_heap N σ)) ->
    st_heap N σ' = hfree N (st_heap N σ) (set_buf (ds_set N d)) ++ [Some new] -> put σ σ' i d' -> effect σ σ' (OpPAA N i n).

Lemma step_effect σ o σ' : after N (step σ o) = Some σ' -> effect σ σ' o.
Proof.
  intros A. assert (Id : effect σ σ o) by (apply EffSame; split; reflexivity).
  destruct (step σ o) as [s v|s e| |] eqn:E; cbn in A; try discriminate; injection A as ->.
  - destruct o; cbn [Api.step] in E.
    + apply load_inv in E as (d & _ & _ & _ & _ & L & _). eapply EffLoad; eauto.
    + unfold api_save in E. apply lift_done in E as (d & _ & E). destruct (negb _); [discriminate|].
      apply lift_done in E as (t & _ & E). injection E as <- _. apply EffSame. split; reflexivity.
    + apply unload_inv in E as (d & C & C' & Co & H & _). eapply EffUnload; eauto. intros d'. rewrite C'. discriminate.
    + injection E as <- _. apply EffAll; reflexivity.
    + injection E as <- _. exact Id.
    + unfold api_info in E. apply lift_done in E as (d & _ & E). injection E as <- _. exact Id.
    + injection E as <- _. exact Id.
    + unfold api_normalize in E. apply lift_done in E as (d & C & E). apply lift_done in E as (((h & s) & (mn & mx)) & En & E).
      injection E as <- _. apply normalize_inv in En as (b & old & new & B & Ho & -> & ->). eapply EffNormalize; [exact C|exact B|exact Ho|..|apply put_put with (1 := C)]; reflexivity.
    + unfold api_group in E. apply lift_done in E as (d & C & E). destruct (negb _); [discriminate|]. cbn zeta in E.
      destruct (global_group N _ _ _ _ _ _) as [(gs & n)|x| |]; try discriminate. injection E as <- _.
      set (d' := mkDS N (ds_set N d) (Some gs) (Some threshold)).
      pose proof (put_put σ (st_heap N σ) i d d' C) as P. rewrite with_heap_id in P.
      apply (EffGroups _ _ _ i d d'); auto; destruct (2 <=? _); auto; exact P.
    + unfold api_saveGroup in E. apply lift_done in E as (d & _ & E). destruct (ds_groups N d); [|discriminate].
      destruct (negb _); [discriminate|]. apply lift_done in E as (thr & _ & E). apply lift_done in E as (t & _ & E). injection E as <- _. apply EffSame. split; reflexivity.
    + unfold api_loadGroup in E. apply lift_done in E as (d & C & E). destruct (st_files N σ path); [|discriminate].
      apply lift_done in E as ((fin & thr) & _ & E). apply lift_done in E as ((gs & r) & _ & E). destruct r; [|discriminate].
      injection E as <- _. pose proof (put_put σ (st_heap N σ) i d (mkDS N (ds_set N d) (Some gs) thr) C) as P. rewrite with_heap_id in P.
      eapply EffGroups; [exact C|..|exact P]; reflexivity.
    + injection E as <- _. apply EffSame. split; reflexivity.
    + apply match_inv in E as (d & gs & gs' & c & dq & q & C & _ & _ & _ & _ & -> & _).
      pose proof (put_put σ (st_heap N σ) result_idx d (mkDS N (ds_set N d) (Some gs') (ds_thr N d)) C) as P. rewrite with_heap_id in P.
      eapply EffGroups; [exact C|..|exact P]; reflexivity.
    + unfold api_PAA in E. apply lift_done in E as (d & C & E). apply lift_done in E as ((h & s) & En & E).
      injection E as <- _. apply PAA_inv in En as (new & -> & -> & Hn). eapply EffPAA; [exact Hn|exact C|..|apply put_put with (1 := C)]; reflexivity.
  - destruct o; try (apply step_exn in E as [->|[(? & ? & X)|((? & ? & ? & X) & _)]]; [exact Id|discriminate X|discriminate X]).
    + cbn [Api.step] in E. unfold api_group in E. apply lift_exn in E as [(_ & ->)|(d & C & E)]; auto.
      destruct (negb _); [injection E as <- _; exact Id|]. cbn zeta in E.
      destruct (global_group N _ _ _ _ _ _) as [(gs & n)|x| |]; try discriminate. injection E as <- _.
      match goal with |- effect _ (put_set _ _ _ (Some ?d')) _ => pose proof (put_put σ (st_heap N σ) i d d' C) as P end. rewrite with_heap_id in P.
      eapply EffGroups; [exact C|..|exact P]; reflexivity.
    + cbn [Api.step] in E. unfold api_loadGroup in E. apply lift_exn in E as [(_ & ->)|(d & C & E)]; auto.
      destruct (st_files N σ path); [|injection E as <- _; exact Id].
      apply lift_exn in E as [(_ & ->)|((fin & thr) & _ & E)]; auto. apply lift_exn in E as [(_ & ->)|((gs & r) & _ & E)]; auto.
      destruct r; [discriminate|]. injection E as <- _.
      pose proof (put_put σ (st_heap N σ) i d (mkDS N (ds_set N d) (Some gs) thr) C) as P. rewrite with_heap_id in P.
      eapply EffGroups; [exact C|..|exact P]; reflexivity.
Qed.

(** Freed arrays stay freed. *)
Lemma free_all_mono l : forall h, freed_mono N h (free_all l h).
Proof.
  induction l as [|o l IH]; intros h; cbn; [intros b H; exact H|]. destruct o as [d|]; [|apply IH].
  eapply freed_trans; [apply freed_hfree|apply IH].
Qed.
Lemma effect_freed σ σ' o : effect σ σ' o -> freed_mono N (st_heap N σ) (st_heap N σ').
Proof.
  intros [o0 (_ & ->)|o0 i d d' _ _ -> _|p m c seps n d (_ & _ & _ & (l & -> & _) & _)|i d _ _ _ ->|_ ->|i d d' b old new _ B Ho _ _ _ -> _|i n d d' new _ _ _ -> _].
  - intros b H. exact H.
  - intros b H. exact H.
  - apply freed_app.
  - apply freed_hfree.
  - apply free_all_mono.
  - eapply freed_set; eauto.
  - eapply freed_trans; [apply freed_hfree|apply freed_app].
Qed.
Lemma run_freed ops : forall σ σ', run σ ops = Some σ' -> freed_mono N (st_heap N σ) (st_heap N σ').
Proof.
  induction ops as [|o ops IH]; intros σ σ' E; cbn [Api.run] in E; [injection E as <-; intros b H; exact H|].
  destruct (after N (step σ o)) as [s1|] eqn:A; [|discriminate]. eapply freed_trans; [exact (effect_freed _ _ _ (step_effect _ _ _ A))|eauto].
Qed.
Lemma free_all_in l : forall h d b, In (Some d) l -> set_buf (ds_set N d) = Some b -> (b < length h)%nat -> nth_error (free_all l h) b = Some None.
Proof.
  induction l as [|o l IH]; intros h d b Hin B Hb; [destruct Hin|]. cbn. destruct Hin as [->|Hin].
  - apply free_all_mono. rewrite B. now apply hfree_freed.
  - destruct o as [d1|]; eapply IH; eauto. now rewrite hfree_length.
Qed.
Lemma free_all_other l : forall h b, (forall d, In (Some d) l -> set_buf (ds_set N d) <> Some b) -> heap_get N (free_all l h) b = heap_get N h b.
Proof.
  induction l as [|o l IH]; intros h b H; cbn; auto. assert (H' : forall d, In (Some d) l -> set_buf (ds_set N d) <> Some b) by (intros; apply H; now right).
  destruct o as [d|]; rewrite IH; auto. apply hfree_other. apply H. now left.
Qed.

(** ** No array is allocated without a dataset that has it. *)
Definition accounted (σ : st) : Prop := forall b l, heap_get N (st_heap N σ) b = Ok l -> exists i d, check σ i = Ok d /\ set_buf (ds_set N d) = Some b.
Lemma heap_get_nth h b l : heap_get N h b = Ok l <-> nth_error h b = Some (Some l).
Proof. unfold heap_get. destruct (nth_error h b) as [[x|]|]; split; intros E; try discriminate; congruence. Qed.
Lemma hfree_get h o b l : heap_get N (hfree N h o) b = Ok l -> heap_get N h b = Ok l /\ o <> Some b.
Proof.
  intros H. destruct o as [c|]; [|split; [exact H|discriminate]]. destruct (Nat.eq_dec b c) as [->|Hn].
  - exfalso. pose proof (heap_get_lt _ _ _ _ H) as Hb. rewrite hfree_length in Hb. apply heap_get_nth in H. rewrite hfree_freed in H by auto. discriminate.
  - rewrite hfree_other in H by congruence. split; auto. congruence.
Qed.
Lemma free_all_get l : forall h b x, heap_get N (free_all l h) b = Ok x -> heap_get N h b = Ok x /\ forall d, In (Some d) l -> set_buf (ds_set N d) <> Some b.
Proof.
  induction l as [|o l IH]; intros h b x H; cbn in H; [split; auto; intros ? []|]. apply IH in H as (H & F).
  destruct o as [d|].
  - apply hfree_get in H as (H & Hn). split; auto. intros d1 [E|Hin]; [injection E as <-; exact Hn|auto].
  - split; auto. intros d1 [E|Hin]; [discriminate|auto].
Qed.
Lemma effect_accounted σ σ' o : effect σ σ' o -> accounted σ -> accounted σ'.
Proof.
  intros E A b l H. destruct E as [o0 (Es & Eh)|o0 i d d' C Eb Eh (P1 & P2)|p m c seps n d (En & C & Co & (x & Eh & Hx) & _)|i d C Cn Co Eh|Es Eh|i d d' b0 old new C B Ho B' _ _ Eh (P1 & P2)|i n d d' new Hn C B Eh (P1 & P2)].
  - rewrite Eh in H. apply A in H as (j & dj & Cj & Bj). exists j, dj. split; auto. rewrite <- Cj. now apply check_ext.
  - rewrite Eh in H. apply A in H as (j & dj & Cj & Bj). destruct (Z.eq_dec j i) as [->|Hj].
    + exists i, d'. split; auto. rewrite Eb. congruence.
    + exists j, dj. split; auto. now rewrite P2.
  - rewrite Eh in H. destruct (Nat.lt_ge_cases b (length (st_heap N σ))) as [Hb|Hb].
    + assert (H0 : heap_get N (st_heap N σ) b = Ok l) by (apply heap_get_nth; apply heap_get_nth in H; now rewrite nth_error_app1 in H).
      apply A in H0 as (j & dj & Cj & Bj). exists j, dj. split; auto. rewrite Co; auto. intros ->.
      apply check_iff in Cj as (_ & Cj). rewrite En, Nat2Z.id in Cj. destruct (first_free_spec N (st_sets N σ)) as (F1 & _ & F3).
      rewrite F3 in Cj; [discriminate|]. apply nth_error_Some. congruence.
    + apply heap_get_nth in H. rewrite nth_error_app2 in H by auto. destruct (set_buf (ds_set N d)) as [b1|] eqn:B.
      * destruct Hx as (-> & data & ->). exists n, d. split; auto. rewrite B. f_equal.
        destruct (b - length (st_heap N σ))%nat as [|k] eqn:Ek; [lia|]. destruct k; discriminate.
      * subst x. destruct (b - length (st_heap N σ))%nat; discriminate.
  - rewrite Eh in H. apply hfree_get in H as (H & Hn). apply A in H as (j & dj & Cj & Bj). exists j, dj. split; auto. rewrite Co; auto.
    intros ->. congruence.
  - rewrite Eh in H. apply free_all_get in H as (H & F). apply A in H as (j & dj & Cj & Bj). exfalso. apply check_iff in Cj as (_ & Cj).
    apply nth_error_In in Cj. exact (F dj Cj Bj).
  - assert (H0 : exists l0, heap_get N (st_heap N σ) b = Ok l0).
    { rewrite Eh in H. destruct (Nat.eq_dec b b0) as [->|Hb]; [eauto|]. rewrite heap_get_set_other in H by auto. eauto. }
    destruct H0 as (l0 & H0). apply A in H0 as (j & dj & Cj & Bj). destruct (Z.eq_dec j i) as [->|Hj].
    + exists i, d'. split; auto. congruence.
    + exists j, dj. split; auto. now rewrite P2.
  - rewrite Eh in H. destruct (Nat.lt_ge_cases b (length (st_heap N σ))) as [Hb|Hb].
    + assert (H0 : heap_get N (hfree N (st_heap N σ) (set_buf (ds_set N d))) b = Ok l).
      { apply heap_get_nth. apply heap_get_nth in H. rewrite nth_error_app1 in H; auto. now rewrite hfree_length. }
      apply hfree_get in H0 as (H0 & Hd). apply A in H0 as (j & dj & Cj & Bj). exists j, dj. split; auto. rewrite P2; auto. intros ->. congruence.
    + apply heap_get_nth in H. rewrite nth_error_app2 in H by (rewrite hfree_length; auto). rewrite hfree_length in H.
      destruct (b - length (st_heap N σ))%nat as [|k] eqn:Ek; [|destruct k; discriminate]. exists i, d'. split; auto. rewrite B. f_equal. lia.
Qed.
Lemma init_accounted files : accounted (st_init N files).
Proof. intros [|b] l H; discriminate. Qed.

(** ** The array of one dataset. *)
(** The same array, length and number of series. *)
Definition same_shape (t t' : tset) : Prop := set_buf t' = set_buf t /\ set_len t' = set_len t /\ set_count t' = set_count t.
Lemma same_shape_get t t' ix a e : same_shape t t' -> getTimeSeries N t' ix a e = getTimeSeries N t ix a e.
Proof. intros (E1 & E2 & E3). unfold getTimeSeries. now rewrite E1, E2, E3. Qed.

(** Of one call: the dataset keeps its array and shape, or the call frees the array and returns. *)
Lemma step_life σ o σ' r d b : wf N σ -> after N (step σ o) = Some σ' -> check σ r = Ok d -> set_buf (ds_set N d) = Some b ->
  (nth_error (st_heap N σ') b = Some None /\ frees r o /\ exists v, step σ o = Done N σ' v) \/
  ((~ (frees r o /\ exists v, step σ o = Done N σ' v)) /\ exists d', check σ' r = Ok d' /\ same_shape (ds_set N d) (ds_set N d') /\
     (o <> OpNormalize N r -> heap_get N (st_heap N σ') b = heap_get N (st_heap N σ) b)).
Proof.
  intros W A C B. destruct (proj1 W r d C b B) as (data & Hd). pose proof (heap_get_lt _ _ _ _ Hd) as Hb.
  assert (Own : forall j dj, check σ j = Ok dj -> set_buf (ds_set N dj) = Some b -> j = r) by (intros j dj Cj Bj; exact (proj2 W j r dj d b Cj C Bj B)).
  assert (Rf : forall t, same_shape t t) by (intros; repeat split).
  pose proof (step_effect σ o σ' A) as E.
  assert (Dec : (frees r o /\ exists v, step σ o = Done N σ' v) \/ ~ (frees r o /\ exists v, step σ o = Done N σ' v)).
  { destruct (step σ o) as [s v|s e| |] eqn:Es; cbn in A; try discriminate; injection A as ->; [|right; intros (_ & v & X); discriminate X].
    assert (D : frees r o \/ ~ frees r o).
    { unfold frees. destruct o; try (right; intros [X|[X|(n0 & X)]]; discriminate X).
      - destruct (Z.eq_dec i r) as [->|Hi]; [left; now left|]. right. intros [X|[X|(n0 & X)]]; try discriminate X. congruence.
      - left. right. now left.
      - destruct (Z.eq_dec i r) as [->|Hi]; [left; right; right; eauto|]. right. intros [X|[X|(n0 & X)]]; try discriminate X. injection X as -> ->. congruence. }
    destruct D as [D|D]; [left; eauto|right; tauto]. }
  destruct Dec as [(Fr & v & Es)|Nf].
  - left. split; [|eauto]. destruct Fr as [->|[->|(n & ->)]].
    + cbn [Api.step] in Es. apply unload_inv in Es as (d1 & C1 & _ & _ & Eh & _). assert (d1 = d) by congruence. subst d1. rewrite Eh, B. now apply hfree_freed.
    + cbn [Api.step] in Es. unfold api_unloadAll in Es. injection Es as <- _. cbn. apply (free_all_in _ _ d); auto. apply check_iff in C as (_ & C). now apply nth_error_In in C.
    + cbn [Api.step] in Es. unfold api_PAA in Es. apply lift_done in Es as (d1 & C1 & Es). apply lift_done in Es as ((h & s) & En & Es).
      assert (d1 = d) by congruence. subst d1. injection Es as <- _. apply PAA_inv in En as (new & -> & _ & _). cbn. rewrite nth_error_app1 by (now rewrite hfree_length). rewrite B. now apply hfree_freed.
  - right. split; auto.
    assert (Done_of : forall h, effect σ σ' o -> h = st_heap N σ' -> frees r o -> (exists e, step σ o = Exn N σ' e)).
    { intros h _ _ F. destruct (step σ o) as [s v|s e| |] eqn:Es; cbn in A; try discriminate; injection A as ->; [destruct Nf; eauto|eauto]. }
    destruct E as [o0 (Es & Eh)|o0 i di d' Ci Eb Eh (P1 & P2)|p m c seps n dl (En & Cl & Co & (x & Eh & Hx) & _)|i di Ci Cn Co Eh|Es Eh|i di d' b0 old new Ci Bi Ho B' El Ec Eh (P1 & P2)|i n di d' new Hn Ci Bi Eh (P1 & P2)].
    + exists d. split; [rewrite <- C; now apply check_ext|]. split; auto. intros _. now rewrite Eh.
    + destruct (Z.eq_dec r i) as [->|Hi].
      * exists d'. split; auto. assert (di = d) by congruence. subst di. rewrite Eb. split; auto. intros _. now rewrite Eh.
      * exists d. rewrite P2 by auto. split; auto. split; auto. intros _. now rewrite Eh.
    + exists d. rewrite Co.
      * split; auto. split; auto. intros _. rewrite Eh, Hd. now apply heap_get_app.
      * intros ->. apply check_iff in C as (_ & C). rewrite En, Nat2Z.id in C. destruct (first_free_spec N (st_sets N σ)) as (F1 & _ & F3).
        rewrite F3 in C; [discriminate|]. apply nth_error_Some. congruence.
    + destruct (Z.eq_dec r i) as [->|Hi].
      * destruct (Done_of _ (EffUnload _ _ i di Ci Cn Co Eh) eq_refl) as (e & Ee); [now left|]. exfalso. cbn [Api.step] in Ee. unfold api_unload in Ee. rewrite Ci in Ee. discriminate.
      * exists d. rewrite Co by auto. split; auto. split; auto. intros _. rewrite Eh. apply hfree_other. intros X. apply Hi. symmetry. eauto.
    + exfalso. destruct (Done_of _ (EffAll _ _ Es Eh) eq_refl) as (e & Ee); [right; now left|]. discriminate.
    + destruct (Z.eq_dec r i) as [->|Hi].
      * exists d'. split; auto. assert (di = d) by congruence. subst di. split; [split; [congruence|auto]|]. intros X. now destruct X.
      * exists d. rewrite P2 by auto. split; auto. split; auto. intros _. rewrite Eh. apply heap_get_set_other. intros <-. apply Hi. symmetry. eauto.
    + destruct (Z.eq_dec r i) as [->|Hi].
      * destruct (Done_of _ (EffPAA _ _ i n di d' new Hn Ci Bi Eh (conj P1 P2)) eq_refl) as (e & Ee); [right; right; eauto|]. exfalso.
        apply step_exn in Ee as [->|[(? & ? & X)|((? & ? & ? & X) & _)]]; [|discriminate X|discriminate X].
        apply (f_equal (@length _)) in Eh. rewrite app_length, hfree_length in Eh. cbn in Eh. lia.
      * exists d. rewrite P2 by auto. split; auto. split; auto. intros _. rewrite Eh.
        assert (X : heap_get N (hfree N (st_heap N σ) (set_buf (ds_set N di))) b = Ok data).
        { rewrite hfree_other; auto. intros X. apply Hi. symmetry. eauto. }
        rewrite Hd. now apply heap_get_app.
Qed.

(** Of a history: up to the first call that frees it the array is the dataset's, after it the array is freed. *)
Lemma run_life ops : forall σ σ' r d b, wf N σ -> run σ ops = Some σ' -> check σ r = Ok d -> set_buf (ds_set N d) = Some b ->
  (freed_in r σ ops -> nth_error (st_heap N σ') b = Some None) /\
  (~ freed_in r σ ops -> exists d', check σ' r = Ok d' /\ same_shape (ds_set N d) (ds_set N d') /\
     (~ In (OpNormalize N r) ops -> heap_get N (st_heap N σ') b = heap_get N (st_heap N σ) b)).
Proof.
  induction ops as [|o ops IH]; intros σ σ' r d b W E C B; cbn [Api.run] in E.
  - injection E as <-. split.
    + intros ([|p pre] & o & post & s & s' & v & X & _); discriminate X.
    + intros _. exists d. split; auto. split; [repeat split|auto].
  - destruct (after N (step σ o)) as [s1|] eqn:A; [|discriminate]. destruct (step_wf N IO writable σ o s1 W A) as (W1 & _).
    destruct (step_life σ o s1 r d b W A C B) as [(F & Fr & v & Es)|(Nf & d1 & C1 & (S1 & S2 & S3) & H1)].
    + split; [intros _; eapply run_freed; eauto|]. intros X. destruct X. exists [], o, ops, σ, s1, v. auto.
    + specialize (IH s1 σ' r d1 b W1 E C1 ltac:(congruence)) as (I1 & I2). split.
      * intros (pre & o' & post & s & s' & v & X & R & Fr & Es). destruct pre as [|p pre]; cbn [app] in X; injection X as <- ->.
        -- cbn [Api.run] in R. injection R as <-. destruct Nf. split; auto. rewrite Es in A. cbn in A. injection A as ->. eauto.
        -- cbn [Api.run] in R. rewrite A in R. apply I1. exists pre, o', post, s, s', v. auto.
      * intros Nn. destruct I2 as (d' & C' & (T1 & T2 & T3) & H').
        { intros (pre & o' & post & s & s' & v & -> & R & Fr & Es). apply Nn. exists (o :: pre), o', post, s, s', v. split; auto. split; auto. cbn [Api.run]. now rewrite A. }
        exists d'. split; auto. split; [repeat split; congruence|]. intros Hn. rewrite H' by (intros X; apply Hn; now right). apply H1. intros ->. apply Hn. now left.
Qed.

(** ** A dataset without an array has no series. *)
Lemma loadData_null contents m c seps cnt len : loadData N IO contents m c seps = Ok (None, cnt, len) -> cnt = 0.
Proof.
  unfold loadData. cbv zeta. set (l := firstn _ _). set (mr := if m <=? 0 then _ else _). clearbody l mr. intros E. apply bind_Ok_inv in E as (((row & n) & data) & E & E2).
  injection E2 as -> <- <-. destruct l as [|x l]; cbn [for_each] in E; [now injection E as <- _|]. exfalso.
  assert (X : forall x s s', load_row N IO mr c seps x s = Ok s' -> snd s' <> None).
  { clear. intros x ((row & n) & data) s' E. unfold load_row in E. cbv zeta in E. apply bind_Ok_inv in E as ((n' & d) & _ & E). apply bind_Ok_inv in E as ((k & d') & _ & E).
    injection E as <-. discriminate. }
  apply bind_Ok_inv in E as (s1 & E1 & E). pose proof (X _ _ _ E1) as H1. clear E1.
  enough (H : snd (row, n, @None (list (num N))) <> None) by (apply H; reflexivity).
  refine (for_each_Ok_inv (fun s => snd s <> None) _ l s1 _ E H1 _). intros y s s' _ E' _. exact (X _ _ _ E').
Qed.
Definition null_empty (σ : st) : Prop := forall i d, check σ i = Ok d -> set_buf (ds_set N d) = None -> set_count (ds_set N d) = 0.
Lemma step_null σ o σ' : null_empty σ -> after N (step σ o) = Some σ' -> null_empty σ'.
Proof.
  intros H A j dj Cj Bj. pose proof (step_effect σ o σ' A) as E.
  destruct E as [o0 (Es & Eh)|o0 i d d' C Eb Eh (P1 & P2)|p m c seps n d (En & C & Co & _)|i d C Cn Co Eh|Es Eh|i d d' b0 old new C B Ho B' _ _ Eh (P1 & P2)|i n d d' new Hn C B Eh (P1 & P2)].
  - apply (H j dj); auto. rewrite <- Cj. apply check_ext. now rewrite Es.
  - destruct (Z.eq_dec j i) as [->|Hj]; [|rewrite P2 in Cj by auto; eauto]. assert (dj = d') by congruence. subst dj. rewrite Eb in *. eauto.
  - destruct (Z.eq_dec j n) as [->|Hj]; [|rewrite Co in Cj by auto; eauto]. assert (dj = d) by congruence. subst dj.
    destruct (step σ (OpLoad N p m c seps)) as [s v|s e| |] eqn:E; cbn in A; try discriminate; injection A as ->; cbn [Api.step] in E.
    + apply load_inv in E as (d1 & contents & data & _ & El & (E1 & C1 & _) & _ & _ & _ & Hd). assert (d1 = d) by congruence. subst d1. destruct data as [l|]; [destruct Hd; congruence|]. eapply loadData_null; eauto.
    + apply load_exn in E. subst σ'. eauto.
  - destruct (Z.eq_dec j i) as [->|Hj]; [now apply Cn in Cj|]. rewrite Co in Cj by auto. eauto.
  - apply check_iff in Cj as (_ & Cj). rewrite Es in Cj. destruct (Z.to_nat j); discriminate.
  - destruct (Z.eq_dec j i) as [->|Hj]; [congruence|]. rewrite P2 in Cj by auto. eauto.
  - destruct (Z.eq_dec j i) as [->|Hj]; [congruence|]. rewrite P2 in Cj by auto. eauto.
Qed.
Lemma init_null files : null_empty (st_init N files).
Proof. intros j dj Cj. apply check_iff in Cj as (_ & Cj). cbn in Cj. destruct (Z.to_nat j); discriminate. Qed.

(** ** The answer of a match is the dataset's own series. *)
Lemma match_answer σ r q ix a e σ1 c : step σ (OpMatch N r q ix a e) = Done N σ1 (VCand N c) ->
  exists d j x y, check σ1 r = Ok d /\ getTimeSeries N (ds_set N d) j x y = Ok (cand_data c) /\ st_heap N σ1 = st_heap N σ.
Proof.
  intros E. cbn [Api.step] in E. apply match_inv in E as (d & gs & gs' & c' & dq & query & C & _ & _ & _ & Eg & -> & Ec). injection Ec as <-.
  unfold global_getBestMatch in Eg. destruct (ts_len query <=? 1); [discriminate|]. apply bind_Ok_inv in Eg as (order & _ & Eg).
  apply bind_Ok_inv in Eg as ((((spaces & query') & dist) & best) & _ & Eg). destruct best as [(l & gi)|]; [|discriminate].
  apply bind_Ok_inv in Eg as (o & _ & Eg). destruct o as [ls|]; [|discriminate]. apply bind_Ok_inv in Eg as (g & _ & Eg).
  apply bind_Ok_inv in Eg as (c' & Ec & Eg). injection Eg as _ <-. unfold group_getBestMatch in Ec.
  apply bind_Ok_inv in Ec as ((((cur & bd) & bm) & qq) & _ & Ec). apply bind_Ok_inv in Ec as (t & Et & Ec). injection Ec as <-.
  eexists. exists (fst bm), (snd bm), (snd bm + g_length N g). split; [apply check_put; apply check_inv in C; tauto|]. split; auto. cbn [ds_set cand_data]. rewrite Et. f_equal.
  unfold getTimeSeries in Et. destruct (_ || _); [discriminate|]. destruct (_ && _); [injection Et as <-; reflexivity|]. destruct (_ || _); [discriminate|]. injection Et as <-. reflexivity.
Qed.
End Life.
