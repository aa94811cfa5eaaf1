(** * Sessions: reachable states, buffers and the effect of operations on other datasets. *)
From Coq Require Import ZArith Bool Lia String List Ascii.
From Verif Require Import Outcome Num Lemire Distance TimeSeries Text Dataset Groups Api.
From Verif Require Import TsProofs GroupSpec GroupProofs GlobalGroup.
Import ListNotations.
Open Scope Z_scope.

Section Lists.
Context {A : Type}.
Lemma nth_list_set_cases (l : list A) n k x y : nth_error (list_set l n x) k = Some y ->
  (k = n /\ y = x) \/ (k <> n /\ nth_error l k = Some y).
Proof.
  destruct (Nat.eq_dec n k) as [->|Hn].
  - intros H. left. split; auto. destruct (Nat.lt_ge_cases k (length l)) as [Hk|Hk].
    + rewrite list_set_nth_error_eq in H by auto. congruence.
    + assert (X : nth_error (list_set l k x) k = None) by (apply nth_error_None; now rewrite list_set_length). congruence.
  - rewrite list_set_nth_error_neq by auto. auto.
Qed.
Lemma nth_removelast (l : list A) k : (k < length l - 1)%nat -> nth_error (removelast l) k = nth_error l k.
Proof.
  revert k. induction l as [|x l IH]; intros k H; cbn in *; [lia|]. destruct l as [|y l]; [cbn in H; lia|].
  destruct k as [|k]; cbn [nth_error removelast] in *; auto. apply IH. cbn in *. lia.
Qed.
Lemma removelast_length (l : list A) : length (removelast l) = (length l - 1)%nat.
Proof. induction l as [|x [|y l] IH]; cbn in *; auto. rewrite IH. lia. Qed.
End Lists.

Section Session.
Context (N : NumOps) (IO : NumIO N) (writable : string -> bool).
Local Notation T := (num N).
Local Notation st := (st N).
Local Notation check := (checkDatasetIndex N).
Local Notation live := (live N).
Local Notation wf := (wf N).
Local Notation quiet := (quiet N).
Local Notation match_target := (match_target N).

Lemma check_iff σ i d : check σ i = Ok d <-> 0 <= i /\ nth_error (st_sets N σ) (Z.to_nat i) = Some (Some d).
Proof.
  split.
  - intros H. apply check_inv in H as (H & E). split; [lia|auto].
  - intros (H & E). unfold checkDatasetIndex. destruct (Z.ltb_spec i 0); [lia|]. cbn [orb].
    assert (Z.to_nat i < length (st_sets N σ))%nat by (apply nth_error_Some; congruence).
    destruct (Z.leb_spec (zlen (st_sets N σ)) i); [unfold zlen in *; lia|]. now rewrite E.
Qed.

(** ** Buffers. *)
Lemma heap_get_lt h b l : heap_get N h b = Ok l -> (b < length h)%nat.
Proof. unfold heap_get. destruct (nth_error h b) eqn:E; [|discriminate]. intros _. apply nth_error_Some. congruence. Qed.
Lemma heap_get_app h h' b l : heap_get N h b = Ok l -> heap_get N (h ++ h') b = Ok l.
Proof. intros H. pose proof (heap_get_lt _ _ _ H). unfold heap_get in *. now rewrite nth_error_app1. Qed.
Lemma heap_get_set_other h b c x : b <> c -> heap_get N (list_set h c x) b = heap_get N h b.
Proof. intros H. unfold heap_get. now rewrite list_set_nth_error_neq by auto. Qed.
Lemma heap_get_set_same h b l x : heap_get N h b = Ok l -> heap_get N (list_set h b (Some x)) b = Ok x.
Proof. intros H. apply heap_get_lt in H. unfold heap_get. now rewrite list_set_nth_error_eq. Qed.
Lemma heap_get_alloc h l : heap_get N (h ++ [Some l]) (length h) = Ok l.
Proof. unfold heap_get. rewrite nth_error_app2 by lia. now rewrite Nat.sub_diag. Qed.
Lemma hfree_other h b c : c <> Some b -> heap_get N (hfree N h c) b = heap_get N h b.
Proof. intros H. unfold hfree. destruct c as [c|]; auto. apply heap_get_set_other. congruence. Qed.
Lemma hfree_length h c : length (hfree N h c) = length h.
Proof. destruct c; cbn; auto. apply list_set_length. Qed.

(** ** A dataset is replaced by one with the same or a new buffer. *)
Lemma check_put_cases σ i o j d : check (put_set N σ i o) j = Ok d -> 0 <= i ->
  (j = i /\ o = Some d) \/ (j <> i /\ check σ j = Ok d).
Proof.
  rewrite !check_iff. cbn [put_set with_sets st_sets]. intros (Hj & H) Hi.
  apply nth_list_set_cases in H as [(E & <-)|(E & H)]; [left|right]; split; auto; try lia.
Qed.
Lemma put_wf σ i d d' : wf σ -> check σ i = Ok d -> live σ d' ->
  set_buf (ds_set N d') = set_buf (ds_set N d) -> wf (put_set N σ i (Some d')).
Proof.
  intros (W1 & W2) Hi Hl Eb. assert (H0 : 0 <= i) by (apply check_inv in Hi; lia). split.
  - intros j d1 H. apply check_put_cases in H as [(-> & [= <-])|(Hn & H)]; auto. exact (W1 _ _ H).
  - intros j k d1 d2 b Hj Hk B1 B2.
    apply check_put_cases in Hj as [(-> & [= <-])|(Hn & Hj)]; auto; apply check_put_cases in Hk as [(-> & [= <-])|(Hn' & Hk)]; auto.
    + rewrite Eb in B1. eauto.
    + rewrite Eb in B2. eauto.
    + eauto.
Qed.

(** Sessions with the same datasets and at least the same buffers. *)
Lemma wf_heap σ h : wf σ -> (forall i d b, check σ i = Ok d -> set_buf (ds_set N d) = Some b ->
    exists l, heap_get N h b = Ok l) -> wf (with_heap N σ h).
Proof.
  intros (W1 & W2) H. split; [|exact W2]. intros i d Hi b Hb. exact (H i d b Hi Hb).
Qed.

Definition keeps (σ σ' : st) (i : Z) : Prop :=
  forall d, check σ i = Ok d -> check σ' i = Ok d /\
    forall b, set_buf (ds_set N d) = Some b -> heap_get N (st_heap N σ') b = heap_get N (st_heap N σ) b.
Lemma keeps_refl σ i : keeps σ σ i.
Proof. intros d H. auto. Qed.

Lemma put_keeps σ i j o : 0 <= j -> i <> j -> keeps σ (put_set N σ j o) i.
Proof.
  intros H0 Hn d. rewrite !check_iff. cbn [put_set with_sets st_sets st_heap]. intros (Hi & H). split; auto. split; auto.
  rewrite list_set_nth_error_neq; auto. lia.
Qed.

(** The result of [normalize], [PAA]. *)
Lemma normalize_inv h s h' s' m : normalize N h s = Ok (h', s', m) -> exists b old new,
  set_buf s = Some b /\ heap_get N h b = Ok old /\ h' = list_set h b (Some new) /\
  s' = mkSet (Some b) (set_len s) (set_count s) (set_path s) true.
Proof.
  unfold normalize. destruct (_ =? 0); [discriminate|]. destruct (_ <? 0); [discriminate|].
  destruct (set_buf s) as [b|]; [|discriminate]. intros E. apply bind_Ok_inv in E as (old & Eo & E).
  apply bind_Ok_inv in E as ((mn & mx) & _ & E). apply bind_Ok_inv in E as (new & _ & E).
  injection E as <- <- <-. exists b, old, new. auto.
Qed.
Lemma PAA_inv h s n h' s' : PAA N h s n = Ok (h', s') -> exists new,
  h' = hfree N h (set_buf s) ++ [Some new] /\
  s' = mkSet (Some (length h)) (calcPAALength (set_len s) n) (set_count s) (set_path s) (set_norm s) /\ 1 <= n.
Proof.
  unfold PAA. destruct (Z.leb_spec n 0); [discriminate|]. destruct (_ <? 0); [discriminate|].
  destruct (_ && _); [discriminate|]. intros E. apply bind_Ok_inv in E as (new & _ & E).
  unfold halloc in E. injection E as <- <-. exists new. rewrite hfree_length. split; auto. split; auto. lia.
Qed.

(** ** What each operation leaves. *)
Lemma first_free_spec l : (first_free N l <= length l)%nat /\
  (forall k, (k < first_free N l)%nat -> exists d, nth_error l k = Some (Some d)) /\
  ((first_free N l < length l)%nat -> nth_error l (first_free N l) = Some None).
Proof.
  induction l as [|[d|] l (I1 & I2 & I3)]; cbn [first_free length].
  - split; [lia|]. split; lia.
  - split; [lia|]. split.
    + intros [|k] Hk; cbn; eauto. apply I2. lia.
    + intros H. cbn. apply I3. lia.
  - split; [lia|]. split; [lia|]. intros _. reflexivity.
Qed.

(** The session after a load that succeeds. *)
Definition loaded (σ σ' : st) (n : Z) (d : dset N) : Prop :=
  n = Z.of_nat (first_free N (st_sets N σ)) /\
  check σ' n = Ok d /\ (forall j, j <> n -> check σ' j = check σ j) /\
  (exists l, st_heap N σ' = st_heap N σ ++ l /\
     match set_buf (ds_set N d) with
     | None => l = []
     | Some b => b = length (st_heap N σ) /\ exists data, l = [Some data]
     end) /\
  st_count N σ' = st_count N σ + 1 /\ ds_groups N d = None /\
  st_ratio N σ' = st_ratio N σ /\ st_files N σ' = st_files N σ /\ st_logged N σ' = st_logged N σ /\
  st_sets N σ' = (if (first_free N (st_sets N σ) <? length (st_sets N σ))%nat
    then list_set (st_sets N σ) (first_free N (st_sets N σ)) (Some d) else st_sets N σ ++ [Some d]).

Lemma check_ext σ σ' : st_sets N σ = st_sets N σ' -> forall i, check σ i = check σ' i.
Proof. intros E i. unfold checkDatasetIndex. now rewrite E. Qed.

Lemma check_slot σ i : check σ i = match (if i <? 0 then None else nth_error (st_sets N σ) (Z.to_nat i)) with
  | Some (Some d) => Ok d | _ => Throw (OnexExn "There is no dataset with given index") end.
Proof.
  unfold checkDatasetIndex. destruct (Z.ltb_spec i 0); cbn [orb]; auto.
  destruct (Z.leb_spec (zlen (st_sets N σ)) i); auto.
  assert (E : nth_error (st_sets N σ) (Z.to_nat i) = None) by (apply nth_error_None; unfold zlen in *; lia). now rewrite E.
Qed.

Lemma insert_slot (l : list (option (dset N))) d k :
  let n := first_free N l in
  let l' := if (n <? length l)%nat then list_set l n (Some d) else l ++ [Some d] in
  nth_error l' n = Some (Some d) /\ (k <> n -> nth_error l' k = nth_error l k).
Proof.
  cbn zeta. destruct (first_free_spec l) as (F1 & _ & F3). destruct (Nat.ltb_spec (first_free N l) (length l)) as [H|H].
  - split; [now apply list_set_nth_error_eq|]. intros Hk. apply list_set_nth_error_neq. auto.
  - assert (E : first_free N l = length l) by lia. rewrite E. split.
    + rewrite nth_error_app2 by lia. now rewrite Nat.sub_diag.
    + intros Hk. destruct (Nat.lt_ge_cases k (length l)).
      * now rewrite nth_error_app1.
      * assert (nth_error l k = None) as -> by (apply nth_error_None; lia).
        apply nth_error_None. rewrite app_length. cbn. lia.
Qed.

Lemma load_inv σ p m c seps σ' v : api_load N IO σ p m c seps = Done N σ' v ->
  exists d contents data, st_files N σ p = Some contents /\
    loadData N IO contents m c seps = Ok (data, set_count (ds_set N d), set_len (ds_set N d)) /\
    loaded σ σ' (Z.of_nat (first_free N (st_sets N σ))) d /\
    set_norm (ds_set N d) = false /\ set_path (ds_set N d) = p /\
    v = VInfo N (info_of N (Z.of_nat (first_free N (st_sets N σ))) d) /\
    match data with
    | None => set_buf (ds_set N d) = None
    | Some l => set_buf (ds_set N d) = Some (length (st_heap N σ)) /\ st_heap N σ' = st_heap N σ ++ [Some l]
    end.
Proof.
  unfold api_load. destruct (st_files N σ p) as [contents|] eqn:Ef; [|discriminate].
  destruct (loadData N IO contents m c seps) as [((data & cnt) & len)| | |] eqn:El; try discriminate. cbn [lift].
  set (hb := match data with Some l => _ | None => _ end).
  destruct hb as (h & b) eqn:Eh. set (d := mkDS N (mkSet b len cnt p false) None None).
  set (n := first_free N (st_sets N σ)).
  set (sets := if (n <? length (st_sets N σ))%nat then _ else _).
  set (s1 := with_count _ _ _). intros E.
  assert (C : check s1 (Z.of_nat n) = Ok d).
  { apply check_iff. split; [lia|]. rewrite Nat2Z.id. unfold s1. cbn. apply (insert_slot (st_sets N σ) d 0). }
  unfold getDatasetInfo in E. rewrite C in E. cbn [bind lift] in E. injection E as <- <-.
  exists d, contents, data. split; auto. split; [exact El|]. 
  assert (Q : match data with
    | None => b = None /\ h = st_heap N σ
    | Some l => b = Some (length (st_heap N σ)) /\ h = st_heap N σ ++ [Some l]
    end).
  { subst hb. destruct data as [l|]; cbn in Eh; injection Eh as <- <-; auto. }
  split.
  - unfold loaded. split; auto. split; auto. split.
    + intros j Hj. rewrite !check_slot. destruct (Z.ltb_spec j 0) as [|H0]; auto. unfold s1. cbn [with_count with_sets st_sets].
      unfold sets, n. rewrite (proj2 (insert_slot (st_sets N σ) d (Z.to_nat j))); auto. fold n. lia.
    + split.
      * destruct data as [l|]; destruct Q as (Q1 & Q2).
        -- exists [Some l]. split; [exact Q2|]. cbn. rewrite Q1. eauto.
        -- exists []. split; [cbn; now rewrite Q2, app_nil_r|]. cbn. now rewrite Q1.
      * cbn. auto 10.
  - do 3 (split; [reflexivity|]). destruct data as [l|]; destruct Q as (Q1 & Q2); auto.
Qed.

Lemma unload_inv σ i σ' v : api_unload N σ i = Done N σ' v -> exists d, check σ i = Ok d /\
  check σ' i = Throw (OnexExn "There is no dataset with given index") /\ (forall j, j <> i -> check σ' j = check σ j) /\
  st_heap N σ' = hfree N (st_heap N σ) (set_buf (ds_set N d)) /\ st_count N σ' = st_count N σ - 1 /\ v = VUnit N /\
  st_ratio N σ' = st_ratio N σ /\ st_files N σ' = st_files N σ /\ st_logged N σ' = st_logged N σ.
Proof.
  unfold api_unload. destruct (check σ i) as [d| | |] eqn:E; try discriminate. cbn [lift]. intros Ed. injection Ed as <- <-.
  exists d. split; auto. apply check_inv in E as (Hr & E).
  assert (X : forall k, nth_error (if i =? zlen (st_sets N σ) - 1 then removelast (st_sets N σ)
                else list_set (st_sets N σ) (Z.to_nat i) None) k =
     if (k =? Z.to_nat i)%nat then (if i =? zlen (st_sets N σ) - 1 then None else Some None) else nth_error (st_sets N σ) k).
  { intros k. unfold zlen in *. destruct (Z.eqb_spec i (Z.of_nat (length (st_sets N σ)) - 1)) as [Hl|Hl].
    - destruct (Nat.eqb_spec k (Z.to_nat i)) as [->|Hk].
      + apply nth_error_None. rewrite removelast_length. lia.
      + destruct (Nat.lt_ge_cases k (length (st_sets N σ) - 1)); [now apply nth_removelast|].
        transitivity (@None (option (dset N))).
        * apply nth_error_None. rewrite removelast_length. lia.
        * symmetry. apply nth_error_None. lia.
    - destruct (Nat.eqb_spec k (Z.to_nat i)) as [->|Hk].
      + apply list_set_nth_error_eq. lia.
      + apply list_set_nth_error_neq. auto. }
  split; [|split; [|cbn; auto 10]].
  - rewrite check_slot. destruct (i <? 0); auto. cbn [with_count with_sets with_heap st_sets]. rewrite X, Nat.eqb_refl.
    now destruct (_ =? _).
  - intros j Hj. rewrite !check_slot. destruct (Z.ltb_spec j 0); auto. cbn [with_count with_sets with_heap st_sets]. rewrite X.
    destruct (Nat.eqb_spec (Z.to_nat j) (Z.to_nat i)); [lia|reflexivity].
Qed.

Lemma match_inv σ r q ix a b σ' v : api_match N σ r q ix a b = Done N σ' v -> exists d gs gs' c dq query,
  check σ r = Ok d /\ check σ q = Ok dq /\ getTimeSeries N (ds_set N dq) ix a b = Ok query /\ ds_groups N d = Some gs /\
  global_getBestMatch N (st_heap N σ) (st_ratio N σ) (ds_set N d) gs query = Ok (gs', c) /\
  σ' = put_set N σ r (Some (mkDS N (ds_set N d) (Some gs') (ds_thr N d))) /\ v = VCand N c.
Proof.
  unfold api_match. destruct (check σ r) as [d| | |] eqn:E1; try discriminate. cbn [lift].
  destruct (check σ q) as [dq| | |] eqn:E2; try discriminate. cbn [lift].
  destruct (getTimeSeries _ _ _ _ _) as [query| | |] eqn:E3; try discriminate. cbn [lift].
  destruct (ds_groups N d) as [gs|] eqn:E4; try discriminate.
  destruct (global_getBestMatch _ _ _ _ _ _) as [(gs' & c)| | |] eqn:E5; try discriminate. cbn [lift].
  intros E. injection E as <- <-. exists d, gs, gs', c, dq, query. auto 10.
Qed.

(** Exceptions: only grouping and loading groups change the session. *)
Lemma lift_exn {A} σ (o : outcome A) (k : A -> res N) σ' e : lift N σ o k = Exn N σ' e ->
  (o = Throw e /\ σ' = σ) \/ (exists a, o = Ok a /\ k a = Exn N σ' e).
Proof. destruct o; cbn; intros H; try discriminate; [right; eauto|]. injection H as <- <-. auto. Qed.
Lemma lift_done {A} σ (o : outcome A) (k : A -> res N) σ' v : lift N σ o k = Done N σ' v -> exists a, o = Ok a /\ k a = Done N σ' v.
Proof. destruct o; cbn; intros H; try discriminate. eauto. Qed.

(** Sessions that differ in nothing that concerns datasets. *)
Definition same_sets (σ σ' : st) : Prop := st_sets N σ' = st_sets N σ /\ st_heap N σ' = st_heap N σ.
Lemma same_sets_wf σ σ' : same_sets σ σ' -> wf σ -> wf σ'.
Proof.
  intros (E1 & E2) (W1 & W2). split.
  - intros i d Hi b Hb. rewrite E2. rewrite (check_ext σ' σ E1) in Hi. eapply W1; eauto.
  - intros i j d d' b Hi Hj. rewrite (check_ext σ' σ E1) in Hi, Hj. eauto.
Qed.
Lemma same_sets_keeps σ σ' i : same_sets σ σ' -> keeps σ σ' i.
Proof. intros (E1 & E2) d Hd. rewrite (check_ext σ' σ E1), E2. auto. Qed.

(** One dataset is replaced, the rest is the same; the buffers of the other datasets are untouched. *)
Lemma replaced σ σ' j d d' : wf σ -> check σ j = Ok d -> check σ' j = Ok d' ->
  (forall i, i <> j -> check σ' i = check σ i) ->
  (forall b, (b < length (st_heap N σ))%nat -> set_buf (ds_set N d) <> Some b ->
      heap_get N (st_heap N σ') b = heap_get N (st_heap N σ) b) ->
  live σ' d' -> (set_buf (ds_set N d') = set_buf (ds_set N d) \/ forall b, set_buf (ds_set N d') = Some b -> (length (st_heap N σ) <= b)%nat) ->
  wf σ' /\ forall i, i <> j -> keeps σ σ' i.
Proof.
  intros (W1 & W2) Hj Hj' Hother Hheap Hlive Hbuf.
  assert (K : forall i, i <> j -> keeps σ σ' i).
  { intros i Hn d1 Hd1. rewrite (Hother i Hn). split; auto. intros b Hb.
    destruct (W1 i d1 Hd1 b Hb) as (l & Hl). apply Hheap; [eapply heap_get_lt; eauto|].
    intros Hb'. apply Hn. eauto. }
  split; auto. split.
  - intros i d1 H1. destruct (Z.eq_dec i j) as [->|Hn]; [now replace d1 with d' by congruence|].
    rewrite (Hother i Hn) in H1. intros b Hb. destruct (K i Hn d1 H1) as (_ & K2). rewrite (K2 b Hb). eapply W1; eauto.
  - assert (X : forall i d1 b, i <> j -> check σ i = Ok d1 -> set_buf (ds_set N d1) = Some b -> set_buf (ds_set N d') = Some b -> False).
    { intros i d1 b Hn H1 B1 B2. destruct Hbuf as [E|Hn2].
      - rewrite E in B2. apply Hn. eauto.
      - specialize (Hn2 b B2). destruct (W1 i d1 H1 b B1) as (l & Hl). apply heap_get_lt in Hl. lia. }
    intros i k d1 d2 b H1 H2 B1 B2. destruct (Z.eq_dec i j) as [->|Hi], (Z.eq_dec k j) as [->|Hk]; auto.
    + exfalso. rewrite (Hother k Hk) in H2. replace d1 with d' in * by congruence. eauto.
    + exfalso. rewrite (Hother i Hi) in H1. replace d2 with d' in * by congruence. eauto.
    + rewrite (Hother i Hi) in H1. rewrite (Hother k Hk) in H2. eauto.
Qed.
Lemma replaced_put σ j d d' : wf σ -> check σ j = Ok d -> set_buf (ds_set N d') = set_buf (ds_set N d) ->
  wf (put_set N σ j (Some d')) /\ forall i, i <> j -> keeps σ (put_set N σ j (Some d')) i.
Proof.
  intros W Hj Hb. apply (replaced σ _ j d d'); auto.
  - apply check_put. apply check_inv in Hj. tauto.
  - intros i Hi. apply check_put_other; auto. apply check_inv in Hj. lia.
  - intros b Eb. rewrite Hb in Eb. destruct W as (W1 & _). exact (W1 j d Hj b Eb).
Qed.

Lemma load_exn σ p m c seps σ' e : api_load N IO σ p m c seps = Exn N σ' e -> σ' = σ.
Proof.
  unfold api_load. destruct (st_files N σ p) as [contents|]; [|now injection 1].
  destruct (loadData N IO contents m c seps) as [((data & cnt) & len)| | |]; try discriminate; [|now injection 1]. cbn [lift].
  set (hb := match data with Some l => _ | None => _ end). destruct hb as (h & b).
  set (d := mkDS N (mkSet b len cnt p false) None None). set (n := first_free N (st_sets N σ)).
  set (sets := if (n <? length (st_sets N σ))%nat then _ else _). set (s1 := with_count _ _ _). intros E. exfalso.
  assert (C : check s1 (Z.of_nat n) = Ok d).
  { apply check_iff. split; [lia|]. rewrite Nat2Z.id. unfold s1. cbn. apply (insert_slot (st_sets N σ) d 0). }
  unfold getDatasetInfo in E. rewrite C in E. discriminate.
Qed.

Theorem step_wf σ o σ' : wf σ -> after N (step N IO writable σ o) = Some σ' ->
  wf σ' /\ forall i, quiet i o -> match_target o <> Some i -> keeps σ σ' i.
Proof.
  intros W A.
  assert (SameS : same_sets σ σ' -> wf σ' /\ forall i, quiet i o -> match_target o <> Some i -> keeps σ σ' i).
  { intros S. split; [eapply same_sets_wf; eauto|]. intros. now apply same_sets_keeps. }
  assert (R : σ' = σ -> wf σ' /\ forall i, quiet i o -> match_target o <> Some i -> keeps σ σ' i).
  { intros ->. split; auto. intros. apply keeps_refl. }
  destruct o; cbn [step] in *.
  - (* load *) destruct (api_load N IO σ path maxNumRow startCol seps) as [s1 v|s1 e| |] eqn:E; cbn in A; try discriminate; injection A as ->.
    + apply load_inv in E as (d & _ & _ & _ & _ & (En & C1 & C2 & (l & El & Hl) & _) & _).
      set (n := Z.of_nat _) in *.
      assert (Hfree : forall d0, check σ n <> Ok d0).
      { intros d0 H0. apply check_iff in H0 as (_ & H0). unfold n in H0. rewrite Nat2Z.id in H0.
        destruct (first_free_spec (st_sets N σ)) as (F1 & _ & F3).
        assert (first_free N (st_sets N σ) < length (st_sets N σ))%nat by (apply nth_error_Some; congruence).
        rewrite F3 in H0 by auto. discriminate. }
      assert (K : forall i, keeps σ σ' i).
      { intros i d1 H1. assert (i <> n) by (intros ->; eapply Hfree; eauto). rewrite C2 by auto. split; auto. intros b Hb.
        rewrite El. destruct W as (W1 & _). destruct (W1 i d1 H1 b Hb) as (x & Hx). rewrite Hx. now apply heap_get_app. }
      split; auto. destruct W as (W1 & W2).
      assert (B : forall b, set_buf (ds_set N d) = Some b -> b = length (st_heap N σ) /\ exists data, l = [Some data]).
      { intros b Hb. rewrite Hb in Hl. auto. }
      split.
      * intros i d1 H1 b Hb. destruct (Z.eq_dec i n) as [->|Hn].
        -- replace d1 with d in * by congruence. destruct (B b Hb) as (-> & data & ->). rewrite El. exists data. apply heap_get_alloc.
        -- rewrite C2 in H1 by auto. destruct (K i d1 H1) as (_ & K2). rewrite K2 by auto. eapply W1; eauto.
      * assert (X : forall i d1 b, check σ i = Ok d1 -> set_buf (ds_set N d1) = Some b -> set_buf (ds_set N d) = Some b -> False).
        { intros i d1 b H1 B1 B2. destruct (B b B2) as (-> & _). destruct (W1 i d1 H1 _ B1) as (x & Hx). apply heap_get_lt in Hx. lia. }
        intros i k d1 d2 b H1 H2 B1 B2. destruct (Z.eq_dec i n) as [->|Hi], (Z.eq_dec k n) as [->|Hk]; auto.
        -- exfalso. rewrite (C2 k Hk) in H2. replace d1 with d in * by congruence. eauto.
        -- exfalso. rewrite (C2 i Hi) in H1. replace d2 with d in * by congruence. eauto.
        -- rewrite (C2 i Hi) in H1. rewrite (C2 k Hk) in H2. eauto.
    + apply R. eapply load_exn; eauto.
  - (* save *) unfold api_save in A. destruct (check σ i) as [d| | |]; cbn in A; try discriminate; [|injection A as <-; auto].
    destruct (writable path); cbn in A; [|injection A as <-; auto].
    destruct (saveData _ _ _ _ _); cbn in A; try discriminate; injection A as <-; auto.
    apply (SameS (conj eq_refl eq_refl)).
  - (* unload *) unfold step in A. destruct (api_unload N σ i) as [s1 v|s1 e| |] eqn:E; cbn in A; try discriminate; injection A as ->.
    + apply unload_inv in E as (d & C0 & C1 & C2 & Eh & _). destruct W as (W1 & W2).
      assert (K : forall j, j <> i -> keeps σ σ' j).
      { intros j Hn d1 H1. rewrite C2 by auto. split; auto. intros b Hb. rewrite Eh. apply hfree_other. intros Hb'. apply Hn. eauto. }
      assert (D : forall j d1, check σ' j = Ok d1 -> j <> i /\ check σ j = Ok d1).
      { intros j d1 H1. assert (j <> i) by (intros ->; congruence). rewrite <- C2; auto. }
      split; [split|].
      * intros j d1 H1 b Hb. apply D in H1 as (Hn & H1). destruct (K j Hn d1 H1) as (_ & K2). rewrite K2 by auto. eapply W1; eauto.
      * intros j k d1 d2 b H1 H2. apply D in H1 as (_ & H1). apply D in H2 as (_ & H2). eauto.
      * intros j Hq _. apply K. cbn in Hq. auto.
    + apply R. unfold api_unload in E. apply lift_exn in E as [(_ & ->)|(d & _ & E)]; auto. discriminate.
  - (* unloadAll *) cbn in A. injection A as <-. split; [split|].
    + intros i d H. unfold checkDatasetIndex in H. cbn in H. destruct (_ || _); [discriminate|]. destruct (Z.to_nat i); discriminate.
    + intros i j d d' b H. unfold checkDatasetIndex in H. cbn in H. destruct (_ || _); [discriminate|]. destruct (Z.to_nat i); discriminate.
    + intros i [].
  - (* count *) injection A as <-. auto.
  - (* info *) unfold api_info, getDatasetInfo in A. destruct (check σ i); cbn in A; try discriminate; injection A as <-; auto.
  - (* allInfo *) injection A as <-. auto.
  - (* normalize *) unfold api_normalize in A. destruct (check σ i) as [d| | |] eqn:C; cbn in A; try discriminate; [|injection A as <-; auto].
    destruct (normalize N (st_heap N σ) (ds_set N d)) as [((h & s') & (mn & mx))| | |] eqn:E; cbn in A; try discriminate; injection A as <-; auto.
    apply normalize_inv in E as (b & old & new & Hb & Hg & -> & ->).
    set (d' := mkDS N _ _ _). set (σ1 := put_set _ _ _ _).
    assert (X : wf σ1 /\ forall j, j <> i -> keeps σ σ1 j).
    { apply (replaced σ σ1 i d d'); auto.
      - apply check_put. exact (proj1 (check_inv N _ _ _ C)).
      - intros j Hj. unfold σ1. rewrite check_put_other; auto. exact (proj1 (check_inv N _ _ _ C)).
      - intros b' Hlt Hb'. cbn. apply heap_get_set_other. congruence.
      - intros b' Hb'. cbn in Hb'. injection Hb' as <-. exists new. cbn. eapply heap_get_set_same; eauto.
    }
    destruct X as (X1 & X2). split; auto.
  - (* group *) unfold api_group in A. destruct (check σ i) as [d| | |] eqn:C; cbn [lift] in A; try discriminate; [|injection A as <-; auto].
    destruct (isLoaded (ds_set N d)); cbn [negb] in A; [|injection A as <-; auto].
    destruct (global_group _ _ _ _ _ _ _) as [(gs & n)|e| |]; try discriminate.
    + set (d' := mkDS N (ds_set N d) (Some gs) (Some threshold)) in A.
      destruct (replaced_put σ i d d' W C eq_refl) as (X1 & X2).
      destruct (2 <=? set_len (ds_set N d)); cbn in A; injection A as <-.
      * split; [eapply same_sets_wf; [|exact X1]; split; reflexivity|]. intros j Hq _. cbn in Hq.
        intros d1 H1. destruct (X2 j (not_eq_sym Hq) d1 H1) as (Y1 & Y2). split; auto.
      * split; auto.
    + cbn in A. injection A as <-. destruct (replaced_put σ i d (mkDS N (ds_set N d) (Some (mkGS N [] "euclidean" (Some DPairwise))) (ds_thr N d)) W C eq_refl) as (X1 & X2).
      split; auto.
  - (* saveGroup *) unfold api_saveGroup in A. destruct (check σ i) as [d| | |]; cbn in A; try discriminate; [|injection A as <-; auto].
    destruct (ds_groups N d) as [gs|]; [|injection A as <-; auto].
    destruct (writable path); cbn in A; [|injection A as <-; auto].
    destruct (init (ds_thr N d)) as [thr| | |]; cbn in A; try discriminate; [|injection A as <-; auto].
    destruct (global_saveGroups _ _ _ _ _) as [t| | |]; cbn in A; try discriminate; injection A as <-; auto.
    apply (SameS (conj eq_refl eq_refl)).
  - (* loadGroup *) unfold api_loadGroup in A. destruct (check σ i) as [d| | |] eqn:C; cbn [lift after] in A; try discriminate; [|injection A as <-; auto].
    destruct (st_files N σ path) as [contents|]; [|injection A as <-; auto].
    destruct (load_header N IO (ds_set N d) (mkIS contents false)) as [(fin & thr)| | |]; cbn [lift after] in A; try discriminate; [|injection A as <-; auto].
    destruct (global_loadGroups N IO (ds_set N d) fin) as [(gs & r)| | |]; cbn [lift after] in A; try discriminate; [|injection A as <-; auto].
    destruct (replaced_put σ i d (mkDS N (ds_set N d) (Some gs) thr) W C eq_refl) as (X1 & X2).
    destruct r; cbn in A; injection A as <-; split; auto.
  - (* setRatio *) cbn in A. injection A as <-. apply (SameS (conj eq_refl eq_refl)).
  - (* match *) destruct (api_match N σ result_idx query_idx index start end_) as [s1 v|s1 e| |] eqn:E; cbn in A; try discriminate; injection A as ->.
    + apply match_inv in E as (d & gs & gs' & c & dq & query & C & _ & _ & _ & _ & -> & _).
      destruct (replaced_put σ result_idx d (mkDS N (ds_set N d) (Some gs') (ds_thr N d)) W C eq_refl) as (X1 & X2).
      split; auto. intros i _ Hm. apply X2. cbn in Hm. congruence.
    + apply R. unfold api_match in E.
      apply lift_exn in E as [(_ & ->)|(d & _ & E)]; auto. apply lift_exn in E as [(_ & ->)|(dq & _ & E)]; auto.
      apply lift_exn in E as [(_ & ->)|(q & _ & E)]; auto. destruct (ds_groups N d); [|now injection E].
      apply lift_exn in E as [(_ & ->)|((gs & c) & _ & E)]; auto. discriminate.
  - (* PAA *) unfold api_PAA in A. destruct (check σ i) as [d| | |] eqn:C; cbn in A; try discriminate; [|injection A as <-; auto].
    destruct (PAA N (st_heap N σ) (ds_set N d) n) as [(h & s')| | |] eqn:E; cbn in A; try discriminate; injection A as <-; auto.
    apply PAA_inv in E as (new & -> & -> & _).
    set (d' := mkDS N _ _ _). set (σ1 := put_set _ _ _ _).
    assert (X : wf σ1 /\ forall j, j <> i -> keeps σ σ1 j).
    { apply (replaced σ σ1 i d d'); auto.
      - apply check_put. exact (proj1 (check_inv N _ _ _ C)).
      - intros j Hj. unfold σ1. rewrite check_put_other; auto. exact (proj1 (check_inv N _ _ _ C)).
      - intros b' Hlt Hb'. unfold σ1. cbn.
        rewrite <- (hfree_other (st_heap N σ) b' (set_buf (ds_set N d))) by auto.
        unfold heap_get. rewrite nth_error_app1; auto. now rewrite hfree_length.
      - intros b' Hb'. cbn in Hb'. injection Hb' as <-. exists new. unfold σ1. cbn.
        rewrite <- (hfree_length (st_heap N σ) (set_buf (ds_set N d))). apply heap_get_alloc.
      - right. cbn. intros b' Hb'. injection Hb' as <-. lia. }
    destruct X as (X1 & X2). split; auto.
Qed.

Lemma init_wf files : wf (st_init N files).
Proof.
  split; intros i; [intros d H|intros j d d' b H]; unfold checkDatasetIndex in H; cbn in H;
    (destruct (_ || _); [discriminate|]; destruct (Z.to_nat i); discriminate).
Qed.
Lemma run_wf ops : forall σ σ', wf σ -> run N IO writable σ ops = Some σ' -> wf σ'.
Proof.
  induction ops as [|o ops IH]; intros σ σ' W E; cbn [run] in E; [now injection E as <-|].
  destruct (after N (step N IO writable σ o)) as [s1|] eqn:A; [|discriminate].
  apply (IH s1); auto. eapply step_wf; eauto.
Qed.
End Session.
