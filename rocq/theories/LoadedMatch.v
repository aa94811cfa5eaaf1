(** * Matching in every session after loading groups: the counterpart of SessionMatch.v for RepMatch.v. *)
From Coq Require Import ZArith Bool Lia String List.
From Verif Require Import Outcome Num Lemire Distance TimeSeries Text Dataset Groups Api Laws Spec.
From Verif Require Import TsProofs GroupSpec GroupProofs GlobalGroup MatchProofs SimProofs SessionProofs TraverseProofs SessionMatch RepMatch.
Import ListNotations.
Open Scope Z_scope.

Section LoadedMatch.
Context (N : NumOps) (IO : NumIO N) (writable : string -> bool).
Local Notation T := (num N).
Local Notation st := (st N).
Local Notation check := (checkDatasetIndex N).
Local Notation rspaces h s b := (rspaces N h s b).

(** Dataset [i] has the groups [gf L] of representatives and members. *)
Definition rready (σ : st) (i : Z) (d : dset N) (data : list T) (gf : Z -> list (list T * list coord)) : Prop :=
  check σ i = Ok d /\ set_len (ds_set N d) <= 2 ^ 30 /\
  exists b gs, set_buf (ds_set N d) = Some b /\ heap_get N (st_heap N σ) b = Ok data /\
    0 <= set_count (ds_set N d) /\ set_count (ds_set N d) * set_len (ds_set N d) <= zlen data /\
    ds_groups N d = Some gs /\ rspaces (st_heap N σ) (ds_set N d) b gf (gs_spaces N gs) /\
    In (gs_name N gs) ["euclidean"; "euclidean_dtw"]%string.

Lemma lists_sim h s b L ls ls' gl : lsim N h ls ls' -> lists N h s b L ls gl -> lists N h s b L ls' gl.
Proof.
  intros (A & B & C & F) ((H1 & H2 & H3 & H4 & H5 & H6) & H7). split.
  - unfold links. rewrite <- A, <- B, <- C, <- (Forall2_zlen _ _ _ F). do 4 (split; [assumption|]). split; [|exact H6].
    intros i g' ms Hg Hm. destruct (Forall2_zget _ _ _ _ _ F Hg) as (g & Eg & S). specialize (H5 i g ms Eg Hm).
    destruct S as (S1 & S2 & S3 & S4 & S5 & S6 & S7). unfold grp_links in *. rewrite <- S1, <- S2, <- S3, <- S4, <- S5. exact H5.
  - intros i g' v cs Hg Hv. destruct (Forall2_zget _ _ _ _ _ F Hg) as (g & Eg & S). destruct (H7 i g v cs Eg Hv) as (K1 & K2 & K3 & K4).
    destruct S as (_ & _ & _ & _ & _ & S6 & S7). unfold rep_is. rewrite <- (same_read N h _ _ S6). split; auto.
    destruct S6 as (E1 & _ & _ & _ & E2). split; [now rewrite <- E2|]. split; auto. unfold here in *. now rewrite <- E1.
Qed.
Lemma rspaces_sim h s b gf gs gs' : gspsim N h gs gs' -> rspaces h s b gf (gs_spaces N gs) -> rspaces h s b gf (gs_spaces N gs').
Proof.
  intros (_ & _ & S) (H1 & H2). split; [now rewrite <- (Forall2_zlen _ _ _ S)|].
  intros L HL. destruct (H2 L HL) as (ls & E & H). destruct (Forall2_zget_l _ _ _ _ _ S E) as (o & Eo & So).
  destruct o as [ls'|]; [|destruct So]. exists ls'. split; auto. eapply lists_sim; eauto.
Qed.
Lemma here_read h h' b t : heap_get N h' b = heap_get N h b -> here N b t -> ts_read N h' t = ts_read N h t.
Proof. intros E H. unfold ts_read, here in *. destruct (ts_src t); auto. subst. now rewrite E. Qed.
Lemma rspaces_heap h h' s b gf sp : heap_get N h' b = heap_get N h b -> rspaces h s b gf sp -> rspaces h' s b gf sp.
Proof.
  intros E (H1 & H2). split; auto. intros L HL. destruct (H2 L HL) as (ls & El & H3 & H). exists ls. split; auto. split; auto.
  intros i g v cs Hg Hv. destruct (H i g v cs Hg Hv) as (K1 & K2 & K3 & K4). split; [now rewrite (here_read _ _ _ _ E K4)|]. split; auto. split; auto.
  unfold cache_ok in *. destruct (ts_cache _); auto. now rewrite (here_read _ _ _ _ E K4).
Qed.

Lemma rready_dataset σ i d data gf : rready σ i d data gf -> dataset N σ i d data.
Proof. intros (C & Hlen & b & gs & B1 & B2 & B3 & B4 & _). split; auto. exists b. auto. Qed.

Theorem step_rready σ o σ' i d data gf : wf N σ -> rready σ i d data gf -> after N (step N IO writable σ o) = Some σ' ->
  quiet N i o -> exists d', rready σ' i d' data gf /\ ds_set N d' = ds_set N d /\ ds_thr N d' = ds_thr N d.
Proof.
  intros W R A Q. pose proof R as (C & Hlen & b & gs & B1 & B2 & B3 & B4 & B5 & B6 & B7).
  assert (K : keeps N σ σ' i -> exists d', rready σ' i d' data gf /\ ds_set N d' = ds_set N d /\ ds_thr N d' = ds_thr N d).
  { intros K. destruct (K d C) as (K1 & K2). specialize (K2 b B1). exists d. split; auto. split; auto. split; auto. exists b, gs.
    rewrite K2. do 5 (split; [assumption|]). split; auto. eapply rspaces_heap; eauto. }
  destruct (step_wf N IO writable σ o σ' W A) as (_ & HK).
  destruct (match_target N o) as [r|] eqn:Em; [|apply K, HK; auto; congruence].
  destruct (Z.eq_dec r i) as [->|Hn]; [|apply K, HK; auto; congruence].
  destruct o; try discriminate. injection Em as ->. cbn [step] in A.
  destruct (api_match N σ i query_idx index start end_) as [s1 v|s1 e| |] eqn:E; cbn in A; try discriminate; injection A as ->.
  - apply match_inv in E as (d1 & gs1 & gs' & c & dq & query & C1 & _ & _ & Eg & Em & -> & _).
    replace d1 with d in * by congruence. replace gs1 with gs in * by congruence.
    exists (mkDS N (ds_set N d) (Some gs') (ds_thr N d)). split; [|cbn; auto]. split.
    + apply check_put. exact (proj1 (check_inv N _ _ _ C)).
    + split; auto. exists b, gs'. cbn [ds_set ds_groups put_set with_sets st_heap]. do 5 (split; [assumption || reflexivity|]).
      apply match_sim in Em. split; [eapply rspaces_sim; eauto|]. destruct Em as (<- & _). exact B7.
  - exists d. split; auto. unfold api_match in E.
      apply lift_exn in E as [(_ & ->)|(d1 & _ & E)]; auto. apply lift_exn in E as [(_ & ->)|(dq & _ & E)]; auto.
      apply lift_exn in E as [(_ & ->)|(q & _ & E)]; auto. destruct (ds_groups N d1); [|injection E as <- _; auto].
      apply lift_exn in E as [(_ & ->)|((gs0 & c) & _ & E)]; auto. discriminate.
Qed.
Theorem run_rready ops : forall σ σ' i d data gf, wf N σ -> rready σ i d data gf -> Forall (quiet N i) ops ->
  run N IO writable σ ops = Some σ' ->
  wf N σ' /\ exists d', rready σ' i d' data gf /\ ds_set N d' = ds_set N d /\ ds_thr N d' = ds_thr N d.
Proof.
  induction ops as [|o ops IH]; intros σ σ' i d data gf W R Q E; cbn [run] in E; [injection E as <-; eauto|].
  destruct (after N (step N IO writable σ o)) as [s1|] eqn:A; [|discriminate].
  inversion Q as [|? ? Q1 Q2]; subst. destruct (step_rready _ _ _ _ _ _ _ W R A Q1) as (d1 & R1 & E1 & E2).
  destruct (IH s1 σ' i d1 data gf) as (W2 & d2 & R2 & E3 & E4); auto.
  - eapply step_wf; eauto.
  - split; auto. exists d2. split; auto. split; congruence.
Qed.

Section Lawful.
Context (dat pos : T -> Prop) (CL : CostLaws N dat pos) (nb : T -> T -> Prop).
Hypothesis nb_le : forall d w, pos d -> pos w -> Laws.le N d w -> nb d w.
Hypothesis nb_drop : forall d C k, klen k -> pos d -> pos C -> Laws.lt N (euc_inorm_dtw N d k) C -> nb d (euc_norm_dtw N C k).
Hypothesis nb_down : forall d d' w, pos d -> pos d' -> pos w -> Laws.le N d' d -> nb d w -> nb d' w.

Theorem rready_match σ i d data gf q ix a e qv bw :
  rready σ i d data gf -> 1 <= set_count (ds_set N d) ->
  query_is N σ q ix a e qv -> Forall dat qv -> 2 <= zlen qv <= set_len (ds_set N d) ->
  band_fun N (st_ratio N σ) (set_len (ds_set N d)) bw ->
  all_comparable N dat (ds_set N d) data qv bw gf -> 
  (exists L v cs, 2 <= L <= set_len (ds_set N d) /\ near N (ds_set N d) qv bw L /\ In (v, cs) (gf L)) ->
  exists σ' L v cs c w b d',
    set_buf (ds_set N d) = Some b /\
    api_match N σ i q ix a e = Done N σ' (VCand N (mkCand (view N (ds_set N d) b L c) w)) /\
    rready σ' i d' data gf /\ ds_set N d' = ds_set N d /\ st_heap N σ' = st_heap N σ /\
    rfound N nb (ds_set N d) data qv (st_ratio N σ) bw gf L v cs c w /\
    denotes N (st_heap N σ') (ds_set N d) data (mkCand (view N (ds_set N d) b L c) w) L c.
Proof.
  intros R Hcnt Q Hqd Hql (Hbw & _) Hcm Hne. pose proof R as (C & Hlen & b & gs & B1 & B2 & B3 & B4 & B5 & B6 & B7).
  destruct (query_read N _ _ _ _ _ _ Q) as (dq & t & Cq & Gt & Rt & Lt & Ct).
  assert (Hb1 : forall k, 1 <= k <= set_len (ds_set N d) -> calculateWarpingBandSize N (st_ratio N σ) k = Ok (bw k)) by (intros; now apply Hbw).
  assert (Hb2 : forall k, 1 <= k <= set_len (ds_set N d) -> 0 <= bw k) by (intros; now apply Hbw).
  destruct (rmatch_spec N dat pos CL nb nb_le nb_drop nb_down (st_heap N σ) (ds_set N d) b data B1 B2 Hlen Hcnt B4 t qv Rt Lt Hqd Hql
     (st_ratio N σ) bw Hb1 Hb2 gf gs B6 Hcm) as (sp & L & v & cs & c & w & E & S & F); auto.
  - split; [apply same_refl|]. now apply cache_None.
  - set (d' := mkDS N (ds_set N d) (Some (mkGS N sp (gs_name N gs) (gs_kind N gs))) (ds_thr N d)).
    exists (put_set N σ i (Some d')), L, v, cs, c, w, b, d'. split; auto. split.
    { unfold api_match. rewrite C. cbn [lift]. rewrite Cq. cbn [lift]. rewrite Gt. cbn [lift]. rewrite B5, E. reflexivity. }
    split.
    { split; [apply check_put; exact (proj1 (check_inv N _ _ _ C))|]. split; [exact Hlen|]. exists b, (mkGS N sp (gs_name N gs) (gs_kind N gs)).
      cbn [ds_set ds_groups gs_spaces put_set with_sets st_heap d']. do 5 (split; [assumption || reflexivity|]). auto. }
    split; [reflexivity|]. split; [reflexivity|]. split; [exact F|].
    destruct F as (HL & _ & Hv & _). unfold denotes, view. cbn [cand_data ts_index ts_start ts_end ts_len].
    do 6 (split; [assumption || reflexivity|]). cbn [put_set with_sets st_heap].
    apply (read_view N (st_heap N σ) (ds_set N d) b data B2 B4 L ltac:(lia) c Hv).
Qed.
Theorem rready_none σ i d data gf q ix a e qv bw :
  rready σ i d data gf -> 1 <= set_count (ds_set N d) ->
  query_is N σ q ix a e qv -> Forall dat qv -> 2 <= zlen qv <= set_len (ds_set N d) ->
  band_fun N (st_ratio N σ) (set_len (ds_set N d)) bw ->
  all_comparable N dat (ds_set N d) data qv bw gf ->
  (forall L v cs, 2 <= L <= set_len (ds_set N d) -> In (v, cs) (gf L) -> bw (Z.max L (zlen qv)) < Z.abs (L - zlen qv)) ->
  api_match N σ i q ix a e = Bad N NullDeref.
Proof.
  intros R Hcnt Q Hqd Hql (Hbw & _) Hcm Hne. pose proof R as (C & Hlen & b & gs & B1 & B2 & B3 & B4 & B5 & B6 & B7).
  destruct (query_read N _ _ _ _ _ _ Q) as (dq & t & Cq & Gt & Rt & Lt & Ct).
  assert (Hb1 : forall k, 1 <= k <= set_len (ds_set N d) -> calculateWarpingBandSize N (st_ratio N σ) k = Ok (bw k)) by (intros; now apply Hbw).
  assert (Hb2 : forall k, 1 <= k <= set_len (ds_set N d) -> 0 <= bw k) by (intros; now apply Hbw).
  unfold api_match. rewrite C. cbn [lift]. rewrite Cq. cbn [lift]. rewrite Gt. cbn [lift]. rewrite B5.
  rewrite (rmatch_none N dat pos CL nb nb_le nb_drop nb_down (st_heap N σ) (ds_set N d) b data Hlen t qv Rt Lt Hqd Hql
     (st_ratio N σ) bw Hb1 Hb2 gf gs B6 Hcm); auto. split; [apply same_refl|]. now apply cache_None.
Qed.
End Lawful.
End LoadedMatch.
