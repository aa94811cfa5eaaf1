(** * Matching after grouping, in every later session. *)
From Coq Require Import ZArith Bool Lia String List.
From Verif Require Import Outcome Num Lemire Distance TimeSeries Text Dataset Groups Api Laws Spec.
From Verif Require Import TsProofs GroupSpec GroupProofs GlobalGroup MatchProofs SimProofs SessionProofs TraverseProofs.
Import ListNotations.
Open Scope Z_scope.

(** A choice for each of finitely many lengths. *)
Lemma choose_range {A} (P : Z -> A -> Prop) (dflt : A) lo hi :
  (forall L, lo <= L <= hi -> exists x, P L x) -> exists f, forall L, lo <= L <= hi -> P L (f L).
Proof.
  intros H. destruct (Z.lt_ge_cases hi lo) as [Hl|Hl]; [exists (fun _ => dflt); intros; lia|].
  assert (G : forall n, (Z.of_nat n <= hi - lo + 1) -> exists f, forall L, lo <= L < lo + Z.of_nat n -> P L (f L)).
  { induction n as [|n IH]; intros Hn; [exists (fun _ => dflt); intros; lia|]. destruct IH as (f & Hf); [lia|].
    destruct (H (lo + Z.of_nat n)) as (x & Hx); [lia|]. exists (fun L => if L =? lo + Z.of_nat n then x else f L).
    intros L HL. destruct (Z.eqb_spec L (lo + Z.of_nat n)) as [->|]; auto. apply Hf. lia. }
  destruct (G (Z.to_nat (hi - lo + 1))) as (f & Hf); [lia|]. exists f. intros L HL. apply Hf. lia.
Qed.

Section SessionMatch.
Context (N : NumOps) (IO : NumIO N) (writable : string -> bool).
Local Notation T := (num N).
Local Notation st := (st N).
Local Notation check := (checkDatasetIndex N).

(** Dataset [i] has groups that refer to its present values. *)
Definition ready (σ : st) (i : Z) (d : dset N) (data : list T) (gmf : Z -> list (list coord)) : Prop :=
  check σ i = Ok d /\ set_len (ds_set N d) <= 2 ^ 30 /\
  exists b gs, set_buf (ds_set N d) = Some b /\ heap_get N (st_heap N σ) b = Ok data /\
    0 <= set_count (ds_set N d) /\ set_count (ds_set N d) * set_len (ds_set N d) <= zlen data /\
    ds_groups N d = Some gs /\ spaces_ok N (st_heap N σ) (ds_set N d) b gmf (gs_spaces N gs) /\
    (forall L c, 2 <= L <= set_len (ds_set N d) -> (In c (concat (gmf L)) <-> valid (ds_set N d) L c)) /\
    gs_name N gs = "euclidean"%string.

Lemma spaces_ok_sim h s b gmf gs gs' : gspsim N h gs gs' -> spaces_ok N h s b gmf (gs_spaces N gs) ->
  spaces_ok N h s b gmf (gs_spaces N gs').
Proof.
  intros (_ & _ & S) (H1 & H2). split; [now rewrite <- (Forall2_zlen _ _ _ S)|].
  intros L HL. destruct (H2 L HL) as (ls & E & H). destruct (Forall2_zget_l _ _ _ _ _ S E) as (o & Eo & So).
  destruct o as [ls'|]; [|destruct So]. exists ls'. split; auto. eapply ls_ok_sim; eauto.
Qed.
Lemma spaces_ok_heap h h' s b gmf sp : heap_get N h' b = heap_get N h b -> spaces_ok N h s b gmf sp -> spaces_ok N h' s b gmf sp.
Proof.
  intros E (H1 & H2). split; auto. intros L HL. destruct (H2 L HL) as (ls & El & H). exists ls. split; auto. eapply ls_ok_heap; eauto.
Qed.

Lemma ready_groups_are σ i d data gmf : ready σ i d data gmf -> exists gs, ds_groups N d = Some gs /\
  forall L, 2 <= L <= set_len (ds_set N d) -> groups_are N (st_heap N σ) (ds_set N d) data gs L (gmf L).
Proof.
  intros (C & Hlen & b & gs & B1 & B2 & B3 & B4 & B5 & (_ & B6) & B7). exists gs. split; auto. intros L HL.
  destruct (B6 L HL) as (ls & E & H).
  eapply ls_groups_are; eauto. lia.
Qed.
Lemma ready_dataset σ i d data gmf : ready σ i d data gmf -> dataset N σ i d data.
Proof. intros (C & Hlen & b & gs & B1 & B2 & B3 & B4 & _). split; auto. exists b. auto. Qed.

Lemma grouped_ready (dat pos : T -> Prop) σ i thr σ' n gs d data : grouped N σ i thr σ' n gs -> dataset N σ i d data ->
  set_len (ds_set N d) <= 2 ^ 30 -> Laws.lt N (half_of N thr) (ninf N) ->
  exists gmf d', ready σ' i d' data gmf /\ ds_set N d' = ds_set N d /\ ds_thr N d' = Some thr /\ ds_groups N d' = Some gs.
Proof.
  intros G D Hlen Hinf. destruct (grouped_spec N dat pos _ _ _ _ _ _ _ _ G D Hlen Hinf) as (b & B1 & B2 & B3 & B4 & B5 & _ & _ & B6).
  destruct (api_group_inv N _ _ _ _ _ _ _ _ G D) as (Hh & C & clock & Eg).
  assert (Hname : gs_name N gs = "euclidean"%string).
  { unfold global_group in Eg. apply bind_Ok_inv in Eg as (k & _ & Eg). apply bind_Ok_inv in Eg as (sp0 & _ & Eg).
    apply bind_Ok_inv in Eg as ((sp1 & tot) & _ & Eg). injection Eg as <- _. reflexivity. }
  destruct (choose_range (fun L gm => exists ls, zget (gs_spaces N gs) L = Ok (Some ls) /\
      ls_ok N (st_heap N σ) (ds_set N d) b L ls gm /\ (forall c, In c (concat gm) <-> valid (ds_set N d) L c)) [] 2 (set_len (ds_set N d))) as (gmf & Hg).
  { intros L HL. destruct (B6 L HL) as (ls & gm & E1 & E2 & E3 & _). eauto. }
  exists gmf, (mkDS N (ds_set N d) (Some gs) (Some thr)). split; [|cbn; auto]. split; auto. split; auto.
  exists b, gs. cbn [ds_set ds_groups]. rewrite Hh. do 5 (split; [assumption || reflexivity|]). split.
  - split; auto. intros L HL. destruct (Hg L HL) as (ls & E1 & E2 & _). eauto.
  - split; auto. intros L c HL. destruct (Hg L HL) as (ls & _ & _ & E3). apply E3.
Qed.

(** Operations that do not address dataset [i], and matches, leave it ready. *)
Theorem step_ready σ o σ' i d data gmf : wf N σ -> ready σ i d data gmf -> after N (step N IO writable σ o) = Some σ' ->
  quiet N i o -> exists d', ready σ' i d' data gmf /\ ds_set N d' = ds_set N d /\ ds_thr N d' = ds_thr N d.
Proof.
  intros W R A Q. pose proof R as (C & Hlen & b & gs & B1 & B2 & B3 & B4 & B5 & B6 & B7 & B8).
  assert (K : keeps N σ σ' i -> exists d', ready σ' i d' data gmf /\ ds_set N d' = ds_set N d /\ ds_thr N d' = ds_thr N d).
  { intros K. destruct (K d C) as (K1 & K2). specialize (K2 b B1). exists d. split; auto. split; auto. split; auto. exists b, gs.
    rewrite K2. do 5 (split; [assumption|]). split; auto. eapply spaces_ok_heap; eauto. }
  destruct (step_wf N IO writable σ o σ' W A) as (_ & HK).
  destruct (match_target N o) as [r|] eqn:Em; [|apply K, HK; auto; congruence].
  destruct (Z.eq_dec r i) as [->|Hn]; [|apply K, HK; auto; congruence].
  destruct o; try discriminate. injection Em as ->. cbn [step] in A.
  destruct (api_match N σ i query_idx index start end_) as [s1 v|s1 e| |] eqn:E; cbn in A; try discriminate; injection A as ->.
  - apply match_inv in E as (d1 & gs1 & gs' & c & dq & query & C1 & _ & _ & Eg & Em & -> & _).
    replace d1 with d in * by congruence. replace gs1 with gs in * by congruence.
    exists (mkDS N (ds_set N d) (Some gs') (ds_thr N d)). split; [|cbn; auto]. split.
    + apply check_put. exact (proj1 (check_inv N _ _ _ C)).
    + split; auto. exists b, gs'. cbn [ds_set ds_groups put_set with_sets st_heap]. do 5 (split; [assumption || reflexivity|]).
      apply match_sim in Em. split; [eapply spaces_ok_sim; eauto|]. split; auto. destruct Em as (<- & _). exact B8.
  - exists d. split; auto. unfold api_match in E.
      apply lift_exn in E as [(_ & ->)|(d1 & _ & E)]; auto. apply lift_exn in E as [(_ & ->)|(dq & _ & E)]; auto.
      apply lift_exn in E as [(_ & ->)|(q & _ & E)]; auto. destruct (ds_groups N d1); [|injection E as <- _; auto].
      apply lift_exn in E as [(_ & ->)|((gs0 & c) & _ & E)]; auto. discriminate.
Qed.
Theorem run_ready ops : forall σ σ' i d data gmf, wf N σ -> ready σ i d data gmf -> Forall (quiet N i) ops ->
  run N IO writable σ ops = Some σ' ->
  exists d', ready σ' i d' data gmf /\ ds_set N d' = ds_set N d /\ ds_thr N d' = ds_thr N d.
Proof.
  induction ops as [|o ops IH]; intros σ σ' i d data gmf W R Q E; cbn [run] in E; [injection E as <-; eauto|].
  destruct (after N (step N IO writable σ o)) as [s1|] eqn:A; [|discriminate].
  inversion Q as [|? ? Q1 Q2]; subst. destruct (step_ready _ _ _ _ _ _ _ W R A Q1) as (d1 & R1 & E1 & E2).
  destruct (IH s1 σ' i d1 data gmf) as (d2 & R2 & E3 & E4); auto.
  - eapply step_wf; eauto.
  - exists d2. split; auto. split; congruence.
Qed.

Lemma earlier_ready (dat pos : T -> Prop) σ' i thr t data : grouped_earlier N IO writable σ' i thr t data ->
  set_len t <= 2 ^ 30 -> Laws.lt N (half_of N thr) (ninf N) ->
  wf N σ' /\ exists gmf d, ready σ' i d data gmf /\ ds_set N d = t /\ ds_thr N d = Some thr.
Proof.
  intros (σ & d & σ1 & n & gs & ops & Wf & D & Et & G & Q & E) Hlen Hinf.
  destruct (grouped_ready dat pos σ i thr σ1 n gs d data G D ltac:(congruence) Hinf) as (gmf & d1 & R & E1 & E2 & _).
  assert (W1 : wf N σ1).
  { destruct G as (clock & d' & G & _). eapply (step_wf N IO writable σ (OpGroup N i thr clock)); auto.
    cbn [step]. now rewrite G. }
  split; [eapply run_wf; eauto|].
  destruct (run_ready ops σ1 σ' i d1 data gmf W1 R Q E) as (d2 & R2 & E3 & E4). exists gmf, d2. split; auto. split; congruence.
Qed.
Lemma ready_members σ i d data gmf : ready σ i d data gmf -> forall L ms, 2 <= L <= set_len (ds_set N d) -> In ms (gmf L) ->
  ms <> [] /\ forall c, In c ms -> valid (ds_set N d) L c.
Proof.
  intros R L ms HL Hms. pose proof R as (_ & _ & b & gs & _ & _ & _ & _ & _ & (_ & B6) & B7 & _). destruct (B6 L HL) as (ls & E & H).
  pose proof (in_zget _ _ Hms) as (k & _ & Hk). destruct (ls_get _ _ _ _ _ _ _ _ _ H Hk) as (g & _ & (_ & _ & _ & _ & Hne & _)).
  split; auto. intros c Hc. apply B7; auto. apply in_concat. eauto.
Qed.
Lemma ready_now σ i d data gmf L gm : ready σ i d data gmf -> 2 <= L <= set_len (ds_set N d) ->
  (groups_now N σ i (ds_set N d) data L gm <-> gm = gmf L).
Proof.
  intros R HL. destruct (ready_groups_are _ _ _ _ _ R) as (gs & Eg & Ha). destruct R as (C & _). split.
  - intros (d1 & gs1 & H1 & _ & Eg1 & Hg). apply check_iff in H1. replace d1 with d in * by congruence.
    replace gs1 with gs in * by congruence. eapply groups_are_unique; eauto.
  - intros ->. exists d, gs. split; [now apply check_iff|]. auto.
Qed.

(** A query. *)
Lemma query_read σ q ix a e qv : query_is N σ q ix a e qv -> exists dq t,
  check σ q = Ok dq /\ getTimeSeries N (ds_set N dq) ix a e = Ok t /\ ts_read N (st_heap N σ) t = Ok qv /\
  ts_len t = zlen qv /\ ts_cache t = None.
Proof.
  intros (dq & data & (C & b & B1 & B2 & B3 & B4) & Hix & Hr). exists dq. unfold getTimeSeries. rewrite B1.
  destruct (Z.ltb_spec ix 0); [lia|]. destruct (Z.leb_spec (set_count (ds_set N dq)) ix); [lia|]. cbn [orb].
  assert (X : forall st L, 0 <= st -> 0 <= L -> st + L <= set_len (ds_set N dq) ->
    ts_read N (st_heap N σ) (mkTS (View b (ix * set_len (ds_set N dq))) ix st (st + L) L None) =
      Ok (sub_values N data (set_len (ds_set N dq)) L (ix, st)) /\ zlen (sub_values N data (set_len (ds_set N dq)) L (ix, st)) = L).
  { intros st L Hs HL Hl. assert (0 <= ix * set_len (ds_set N dq) + st /\ ix * set_len (ds_set N dq) + st + L <= zlen data) by nia.
    unfold sub_values. cbn [fst snd]. split; [|apply zslice_len; lia]. unfold ts_read. cbn [ts_src ts_start ts_len].
    rewrite B2. cbn [bind]. unfold window. destruct (Z.leb_spec L 0) as [HL0|HL0].
    - replace L with 0 by lia. reflexivity.
    - destruct (Z.ltb_spec (ix * set_len (ds_set N dq) + st) 0); [lia|].
      destruct (Z.ltb_spec (zlen data) (ix * set_len (ds_set N dq) + st + L)); [lia|]. reflexivity. }
  destruct Hr as [(Ha & He & Hl & ->)|(Ha & He & ->)].
  - destruct (Z.ltb_spec a 0); [|lia]. destruct (Z.ltb_spec e 0); [|lia]. cbn [andb].
    destruct (X 0 (set_len (ds_set N dq))) as (X1 & X2); try lia. cbn [Z.add] in X1.
    eexists. split; [exact C|]. split; [reflexivity|]. split; [exact X1|]. split; [cbn; auto|reflexivity].
  - destruct (Z.ltb_spec a 0); [lia|]. cbn [andb orb]. destruct (Z.leb_spec e a); [lia|]. destruct (Z.ltb_spec (set_len (ds_set N dq)) e); [lia|].
    cbn [orb]. destruct (X a (e - a)) as (X1 & X2); try lia. replace (a + (e - a)) with e in X1 by lia.
    eexists. split; [exact C|]. split; [reflexivity|]. split; [exact X1|]. split; [cbn; auto|reflexivity].
Qed.

(** ** The match. *)
Section Lawful.
Context (dat pos : T -> Prop) (CL : CostLaws N dat pos) (nb : T -> T -> Prop).
Hypothesis nb_le : forall d w, pos d -> pos w -> Laws.le N d w -> nb d w.
Hypothesis nb_drop : forall d C k, klen k -> pos d -> pos C -> Laws.lt N (euc_inorm_dtw N d k) C -> nb d (euc_norm_dtw N C k).
Hypothesis nb_down : forall d d' w, pos d -> pos d' -> pos w -> Laws.le N d' d -> nb d w -> nb d' w.

Theorem ready_match σ i d data gmf q ix a e qv bw :
  ready σ i d data gmf -> 1 <= set_count (ds_set N d) -> Forall dat data ->
  query_is N σ q ix a e qv -> Forall dat qv -> 2 <= zlen qv <= set_len (ds_set N d) ->
  (forall k, 1 <= k <= set_len (ds_set N d) -> calculateWarpingBandSize N (st_ratio N σ) k = Ok (bw k) /\ 0 <= bw k) ->
  (forall L c, 2 <= L <= set_len (ds_set N d) -> valid (ds_set N d) L c ->
     no_overflow N qv (vals N (ds_set N d) data L c) (bw (Z.max (zlen qv) L))) ->
  exists σ' L gi ms c b d',
    set_buf (ds_set N d) = Some b /\
    api_match N σ i q ix a e = Done N σ' (VCand N (mkCand (view N (ds_set N d) b L c) (W N (ds_set N d) data qv (st_ratio N σ) L c))) /\
    ready σ' i d' data gmf /\ ds_set N d' = ds_set N d /\ ds_thr N d' = ds_thr N d /\ st_heap N σ' = st_heap N σ /\
    found N nb (ds_set N d) data qv (st_ratio N σ) bw gmf L gi ms c /\
    warpedDistance N (st_ratio N σ) qv (vals N (ds_set N d) data L c) (ninf N) = Ok (W N (ds_set N d) data qv (st_ratio N σ) L c).
Proof.
  intros R Hcnt Hdat Q Hqd Hql Hbw Hov. pose proof R as (C & Hlen & b & gs & B1 & B2 & B3 & B4 & B5 & B6 & B7 & B8).
  destruct (query_read _ _ _ _ _ _ Q) as (dq & t & Cq & Gt & Rt & Lt & Ct).
  assert (Hb1 : forall k, 1 <= k <= set_len (ds_set N d) -> calculateWarpingBandSize N (st_ratio N σ) k = Ok (bw k)) by (intros; now apply Hbw).
  assert (Hb2 : forall k, 1 <= k <= set_len (ds_set N d) -> 0 <= bw k) by (intros; now apply Hbw).
  destruct (match_spec N dat pos CL nb nb_le nb_drop nb_down (st_heap N σ) (ds_set N d) b data B1 B2 Hdat Hlen B4 t qv Rt Lt Hqd Hql
     (st_ratio N σ) bw Hb1 Hb2 Hov gmf gs B6) as (sp & L & gi & ms & c & E & S1 & S2 & F).
  - split; [apply same_refl|]. now apply cache_None.
  - intros E0. assert (X : In (0, 0) (concat (gmf (zlen qv)))).
    { apply B7; auto. unfold valid. cbn. lia. }
    rewrite E0 in X. destruct X.
  - set (d' := mkDS N (ds_set N d) (Some (mkGS N sp (gs_name N gs) (gs_kind N gs))) (ds_thr N d)).
    exists (put_set N σ i (Some d')), L, gi, ms, c, b, d'. split; auto. split.
    { unfold api_match. rewrite C. cbn [lift]. rewrite Cq. cbn [lift]. rewrite Gt. cbn [lift]. rewrite B5, E. reflexivity. }
    split.
    { split; [apply check_put; exact (proj1 (check_inv N _ _ _ C))|]. split; [exact Hlen|]. exists b, (mkGS N sp (gs_name N gs) (gs_kind N gs)).
      cbn [ds_set ds_groups gs_spaces put_set with_sets st_heap d']. do 5 (split; [assumption || reflexivity|]). split; auto. }
    do 3 (split; [reflexivity|]). split; auto.
    destruct F as (HL & _ & _ & Hv & _).
    destruct (W_cost N dat pos CL (ds_set N d) data Hdat Hlen B4 qv Hqd Hql (st_ratio N σ) bw Hb1 Hb2 Hov L c HL Hv) as (Cc & _ & _ & Ew & _).
    exact Ew.
Qed.

Definition band_fun (ratio : T) (len : Z) (bw : Z -> Z) : Prop :=
  (forall k, 1 <= k <= len -> calculateWarpingBandSize N ratio k = Ok (bw k) /\ 0 <= bw k) /\
  (forall k, 1 <= k -> k + 1 <= len -> bw (k + 1) <= bw k + 1).

Theorem earlier_match σ i thr t data q ix a e qv bw :
  grouped_earlier N IO writable σ i thr t data -> Laws.lt N (half_of N thr) (ninf N) ->
  set_len t <= 2 ^ 30 -> 1 <= set_count t -> Forall dat data ->
  query_is N σ q ix a e qv -> Forall dat qv -> 2 <= zlen qv <= set_len t ->
  band_fun (st_ratio N σ) (set_len t) bw ->
  (forall L c, 2 <= L <= set_len t -> valid t L c -> no_overflow N qv (vals N t data L c) (bw (Z.max (zlen qv) L))) ->
  exists σ' gmf d L gi ms c b, let W := W N t data qv (st_ratio N σ) in
  api_match N σ i q ix a e = Done N σ' (VCand N (mkCand (view N t b L c) (W L c))) /\
  ready σ i d data gmf /\ ds_set N d = t /\
  found N nb t data qv (st_ratio N σ) bw gmf L gi ms c /\
  denotes N (st_heap N σ') t data (mkCand (view N t b L c) (W L c)) L c /\
  (forall L c, 2 <= L <= set_len t -> valid t L c ->
     dtw_is N (st_ratio N σ) qv (sub_values N data (set_len t) L c) (W L c) /\ pos (W L c)) /\
  (forall L c, 2 <= L <= set_len t -> valid t L c -> bw (Z.max (zlen qv) L) < Z.abs (L - zlen qv) -> W L c = ninf N).
Proof.
  intros G Hh Hlen Hc Hfd Q Hfq Hql (B1 & B2) Hov.
  destruct (earlier_ready dat pos σ i thr t data G Hlen Hh) as (_ & gmf & d & R & Et & _). subst t.
  pose proof R as (C & Hl30 & b0 & gs & X1 & X2 & X3 & X4 & _).
  destruct (ready_match σ i d data gmf q ix a e qv bw) as (σ' & L & gi & ms & c & b & d' & Eb & E & R' & _ & _ & Eh & F & Ew); auto.
  replace b0 with b in * by congruence.
  assert (Hall : forall L c, 2 <= L <= set_len (ds_set N d) -> valid (ds_set N d) L c ->
      dtw_is N (st_ratio N σ) qv (sub_values N data (set_len (ds_set N d)) L c)
       (W N (ds_set N d) data qv (st_ratio N σ) L c) /\ pos (W N (ds_set N d) data qv (st_ratio N σ) L c)).
  { intros L0 c0 HL0 Hv0. split.
    - destruct (W_cost N dat pos CL (ds_set N d) data Hfd Hl30 X4 qv Hfq Hql (st_ratio N σ) bw
        (fun k Hk => proj1 (B1 k Hk)) (fun k Hk => proj2 (B1 k Hk)) Hov L0 c0 HL0 Hv0) as (_ & _ & _ & Ew0 & _). exact Ew0.
    - apply (W_pos N dat pos CL (ds_set N d) data Hfd Hl30 X4 qv Hfq Hql (st_ratio N σ) bw
        (fun k Hk => proj1 (B1 k Hk)) (fun k Hk => proj2 (B1 k Hk)) Hov L0 c0 HL0 Hv0). }
  pose proof F as (HL & _ & _ & Hv & _).
  exists σ', gmf, d, L, gi, ms, c, b. cbn zeta. split; auto. split; auto. split; auto. split; auto. split.
  { unfold denotes, view. cbn [cand_data ts_index ts_start ts_end ts_len]. do 6 (split; [assumption || reflexivity|]).
    rewrite Eh. apply (read_view N (st_heap N σ) (ds_set N d) b data X2 X4 L ltac:(lia) c Hv). }
  split; auto. intros L0 c0 HL0 Hv0 Hfar.
  apply (W_far N dat pos CL (ds_set N d) data Hfd Hl30 X4 qv Hfq Hql (st_ratio N σ) bw
      (fun k Hk => proj1 (B1 k Hk)) (fun k Hk => proj2 (B1 k Hk)) Hov L0 c0); auto.
Qed.
End Lawful.
End SessionMatch.
