(** * Property C57: matching against groups loaded from a file.

    [loaded_earlier] and [in_reach] are defined in LoadedSpec.v, [query_is], [denotes] and [dtw_is] in GroupSpec.v, [not_better64] and
    [ratio_ok64] in Properties_Match.v, [small64] (finite, at most 2^500) in Numeric.v. *)
From Coq Require Import ZArith Bool Lia Reals Lra SpecFloat Ascii String List.
From Flocq Require Import Core.
From Verif Require Import Outcome Num Distance TimeSeries Text Dataset Groups Api Laws F64Base F64Laws Spec Numeric DecSpec NumSpec GroupFileSpec GroupFileProofs StreamProofs.
From Verif Require Import TsProofs GroupSpec GroupProofs GlobalGroup MatchProofs SimProofs SessionProofs SessionMatch RepMatch LoadedMatch LoadedSpec Metric ApiProofs Properties_Groups Properties_Match Properties_Api Properties_Data Properties_GroupFile.
Import ListNotations.
Open Scope Z_scope.

Lemma nb64_le : forall d w, pos64 d -> pos64 w -> le F64 d w -> not_better64 d w.
Proof.
  intros x w Px Pw Hle y Fy Hy. apply le64; auto using fin_ok, pos_ok.
  apply lt64 in Hy; auto using fin_ok, pos_ok. apply le64 in Hle; auto using pos_ok. lra.
Qed.
Lemma nb64_drop : forall d C k, klen k -> pos64 d -> pos64 C -> lt F64 (euc_inorm_dtw F64 d k) C -> not_better64 d (euc_norm_dtw F64 C k).
Proof. intros x C0 k Hk Px PC Hlt y Fy Hy. now apply (drop_margin x C0 k). Qed.
Lemma nb64_down : forall d d' w, pos64 d -> pos64 d' -> pos64 w -> le F64 d' d -> not_better64 d w -> not_better64 d' w.
Proof.
  intros x x' w Px Px' Pw Hle Hnb y Fy Hy. apply Hnb; auto. apply lt64; auto using fin_ok, pos_ok.
  apply lt64 in Hy; auto using fin_ok, pos_ok. apply le64 in Hle; auto using pos_ok. lra.
Qed.

Lemma loaded_rspaces h s b f sp : set_len s <= 2 ^ 30 -> loaded_spaces s f sp -> sized (set_len s) f -> members_exist (set_count s) (set_len s) f ->
  listed_once (set_len s) f -> rspaces F64 h s b f sp.
Proof.
  intros Hlen (H1 & _ & H) Hsz Hme Hlo. split; auto. intros L HL. destruct (H L HL) as (ls & E & Hl). exists ls. split; auto. split.
  - exact (lists_links s L ltac:(lia) ls (f L) Hlen Hl (Hlo L HL) (fun v cs Hin c => Hme L v cs c HL Hin)).
  - intros k g v cs Eg Ev. destruct Hl as (_ & _ & _ & _ & _ & _ & Hg). destruct (Hg k g v cs Eg Ev) as (-> & _).
    unfold rep_is. cbn [g_centroid]. split; [apply owned_read; [lia|apply (Hsz L v cs HL); eapply zget_in; eauto]|].
    split; [reflexivity|]. split; [now apply cache_None|exact I].
Qed.

Lemma name_known (w : text) : In w [T_ "euclidean"; T_ "euclidean_dtw"] \/ ~ In w [T_ "euclidean"; T_ "euclidean_dtw"].
Proof. destruct (in_dec (list_eq_dec ascii_dec) w [T_ "euclidean"; T_ "euclidean_dtw"]); auto. Qed.

Lemma loaded_rready writable σ i t data f : loaded_earlier writable σ i t data f -> set_len t <= 2 ^ 30 -> 1 <= set_len t ->
  wf F64 σ /\ exists d, rready F64 σ i d data f /\ ds_set F64 d = t.
Proof.
  intros (s & d & p & file & thr & name & s1 & v & ops & W & D & <- & Hf & Hg & Hsz & Hme & Hlo & E & Q & R) Hlen Hl1.
  assert (W1 : wf F64 s1) by (eapply (step_wf F64 F64_IO writable s (OpLoadGroup F64 i p)); auto; now rewrite E).
  destruct (name_known name) as [Hn|Hn].
  - destruct (load_general writable s i d data p file thr name f D Hf ltac:(lia) Hg Hn Hsz) as [(E' & _)|(k & sp & E' & Hsp)]; rewrite E in E'; [discriminate|].
    injection E' as -> _. pose proof D as (C & b & D1 & D2 & D3 & D4).
    set (gs := mkGS F64 sp (string_of_list_ascii name) (Some k)) in *. set (d' := mkDS F64 (ds_set F64 d) (Some gs) (Some thr)) in *.
    assert (R1 : rready F64 (put_set F64 s i (Some d')) i d' data f).
    { split; [apply check_put; exact (proj1 (check_inv F64 _ _ _ C))|]. split; [cbn; lia|]. exists b, gs. cbn [ds_set ds_groups put_set with_sets st_heap d'].
      do 5 (split; [assumption || reflexivity|]). split; [apply loaded_rspaces; auto|]. cbn [gs_name gs]. destruct Hn as [<-|[<-|[]]]; [left|right; left]; reflexivity. }
    destruct (run_rready F64 F64_IO writable ops _ _ i d' data f W1 R1 Q R) as (W2 & d2 & R2 & E2 & _). split; auto. exists d2. auto.
  - exfalso. destruct Hg as (r & q1 & q2 & q3 & q4 & Hh & W1' & W2 & W3 & _).
    assert (H : has_dataset F64 s i d) by (apply has_check, D).
    destruct (C41_unknown_distance writable s i d p file thr r name H Hf Hh) as (s' & d' & gs & m & E' & _); auto.
    + left. eauto 10.
    + rewrite E in E'. discriminate.
Qed.

Lemma rready_facts (σ : st F64) i d data gf : rready F64 σ i d data gf -> let t := ds_set F64 d in
  0 <= set_count t /\ set_count t * set_len t <= zlen data /\ 0 <= set_len t + 1 /\ sized (set_len t) gf /\ members_exist (set_count t) (set_len t) gf /\ listed_once (set_len t) gf.
Proof.
  intros (C & Hlen & b & gs & B1 & B2 & B3 & B4 & B5 & (Z & H) & _) t. split; auto. split; auto. split; [fold t in Z; pose proof (zlen_nonneg (gs_spaces F64 gs)); lia|].
  split; [|split].
  - intros L v cs HL Hin. destruct (H L HL) as (ls & _ & Hl). apply in_zget in Hin as (k & Hk & Ek). destruct (lists_get _ _ _ _ _ _ _ _ _ _ Hl Ek) as (g & _ & _ & R & Lc & _).
    rewrite <- Lc. apply (ts_read_len F64 (st_heap F64 σ) (g_centroid F64 g) v R). lia.
  - intros L v cs c HL Hin Hc. destruct (H L HL) as (ls & _ & (Hk & _)). apply (proj2 (proj2 (proj2 (proj2 (proj2 (proj2 Hk)))))). apply in_concat. exists cs. split; auto. apply in_map_iff. exists (v, cs). auto.
  - intros L HL. destruct (H L HL) as (ls & _ & (Hk & _)). apply Hk.
Qed.

(** The same for any session whose dataset has the groups [f]. *)
Section Ready.
Context (σ : st F64) (i : Z) (d : dset F64) (data : list spec_float) (f : Z -> list (list spec_float * list coord)).
Context (q ix a e : Z) (qv : list spec_float).
Definition ready_asks : Prop :=
  rready F64 σ i d data f /\ Forall small64 data /\ Forall small64 qv /\
  (forall L v cs, 2 <= L <= set_len (ds_set F64 d) -> In (v, cs) (f L) -> Forall small64 v) /\
  set_len (ds_set F64 d) <= 2 ^ 20 /\ 1 <= set_count (ds_set F64 d) /\ ratio_ok64 (st_ratio F64 σ) (set_len (ds_set F64 d)) /\
  query_is F64 σ q ix a e qv /\ 2 <= zlen qv <= set_len (ds_set F64 d).

Lemma ready_use : ready_asks -> exists bw, band_fun F64 (st_ratio F64 σ) (set_len (ds_set F64 d)) bw /\ all_comparable F64 fin64 (ds_set F64 d) data qv bw f /\ Forall fin64 qv.
Proof.
  intros (R & Hd & Hq & Hv & Hlen & Hc & Hr & Q & Hql).
  destruct (band_fun64 _ _ Hr ltac:(lia)) as (bw & B). exists bw. split; auto.
  split; [|eapply Forall_impl; [|exact Hq]; apply small_fin].
  assert (Hok : forall L v, 2 <= L <= set_len (ds_set F64 d) -> zlen v = L -> Forall small64 v -> okv F64 fin64 qv bw L v).
  { intros L v HL Ez Hs. split; auto. split; [eapply Forall_impl; [|exact Hs]; apply small_fin|].
    apply no_overflow_64; auto; change (num F64) with spec_float in *; lia. }
  destruct (rready_facts _ _ _ _ _ R) as (_ & _ & _ & Hsz & Hme & _).
  pose proof R as (_ & _ & b & gs & _ & _ & _ & B4 & _).
  intros L HL v cs Hin. split; [apply Hok; eauto|]. intros c Hcc. apply Hok; auto.
  - apply (vals_len F64 (ds_set F64 d) data); auto; [lia|]. exact (Hme L v cs c HL Hin Hcc).
  - apply Forall_forall. intros y Hy. rewrite Forall_forall in Hd. apply Hd. eapply in_slice; eauto.
Qed.
Lemma ready_match : ready_asks -> (exists L v cs, 2 <= L <= set_len (ds_set F64 d) /\ In (v, cs) (f L) /\ in_reach (st_ratio F64 σ) (zlen qv) L) ->
  exists σ' c L p v cs, api_match F64 σ i q ix a e = Done F64 σ' (VCand F64 c) /\ denotes F64 (st_heap F64 σ') (ds_set F64 d) data c L p /\
    In (v, cs) (f L) /\
    ((cs = [] /\ p = (0, 0) /\ cand_dist c = ninf F64) \/
     (In p cs /\ dtw_is F64 (st_ratio F64 σ) qv (sub_values F64 data (set_len (ds_set F64 d)) L p) (cand_dist c) /\ lt F64 (cand_dist c) (ninf F64) /\
      forall p', In p' cs -> exists w, dtw_is F64 (st_ratio F64 σ) qv (sub_values F64 data (set_len (ds_set F64 d)) L p') w /\ not_better64 (cand_dist c) w)) /\
    exists D0, dtw_is F64 (st_ratio F64 σ) qv v D0 /\ lt F64 D0 (ninf F64) /\
      forall L' v' cs', 2 <= L' <= set_len (ds_set F64 d) -> In (v', cs') (f L') ->
        exists w, dtw_is F64 (st_ratio F64 σ) qv v' w /\ not_better64 D0 w.
Proof.
  intros A (L0 & v0 & cs0 & HL0 & Hin0 & r0 & Er0 & Hr0). destruct (ready_use A) as (bw & B & Hcm & Hfq).
  destruct A as (R & _ & _ & _ & Hlen & Hc & _ & Q & Hql).
  destruct (rready_match F64 fin64 pos64 f64_cost not_better64 nb64_le nb64_drop nb64_down σ i d data f q ix a e qv bw R Hc Q Hfq Hql B Hcm)
    as (σ' & L & v & cs & p & w & b & d' & Eb & E & R' & Ed' & Eh & F & Dn).
  { exists L0, v0, cs0. split; auto. split; auto. right. split; [|apply B]. pose proof (proj1 (proj1 B (Z.max (zlen qv) L0) ltac:(change (num F64) with spec_float in *; lia))) as X.
    change (num F64) with spec_float in *. rewrite Z.max_comm. rewrite X in Er0. injection Er0 as <-. lia. }
  pose proof R as (_ & Hl30 & b0 & gs & X1 & X2 & X3 & X4 & _).
  assert (Hb1 : forall k, 1 <= k <= set_len (ds_set F64 d) -> calculateWarpingBandSize F64 (st_ratio F64 σ) k = Ok (bw k)) by (intros; now apply B).
  assert (Hb2 : forall k, 1 <= k <= set_len (ds_set F64 d) -> 0 <= bw k) by (intros; now apply B).
  assert (HD : forall L v, 2 <= L <= set_len (ds_set F64 d) -> okv F64 fin64 qv bw L v ->
     dtw_is F64 (st_ratio F64 σ) qv v (D F64 qv (st_ratio F64 σ) v) /\ pos64 (D F64 qv (st_ratio F64 σ) v)).
  { intros L1 v1 HL1 Hv1. split.
    - destruct (D_cost F64 fin64 pos64 f64_cost (ds_set F64 d) Hl30 qv Hfq Hql (st_ratio F64 σ) bw Hb1 Hb2 L1 v1 HL1 Hv1) as (_ & _ & _ & Ew & _). exact Ew.
    - exact (D_pos F64 fin64 pos64 f64_cost (ds_set F64 d) Hl30 qv Hfq Hql (st_ratio F64 σ) bw Hb1 Hb2 L1 v1 HL1 Hv1). }
  destruct F as (HL & Hin & Hv & Hlt & Hmem & Hrep).
  eexists σ', _, L, p, v, cs. split; [exact E|]. split; [exact Dn|]. split; [exact Hin|]. cbn [cand_dist]. split.
  - destruct Hmem as [Hm|(Hp & Ew & Hf & Hall)]; [left; exact Hm|right]. split; auto. subst w. destruct (Hcm L HL v cs Hin) as (_ & Hok).
    split; [apply (HD L); auto|]. split; auto. intros p' Hp'. eexists. split; [apply (HD L); eauto|]. now apply Hall.
  - exists (D F64 qv (st_ratio F64 σ) v). split; [apply (HD L); auto; eapply Hcm; eauto|]. split; auto. intros L' v' cs' HL' Hin'.
    exists (D F64 qv (st_ratio F64 σ) v'). assert (Hok : okv F64 fin64 qv bw L' v') by (eapply Hcm; eauto). split; [now apply (HD L')|].
    change (num F64) with spec_float in *.
    destruct (Z_le_dec (Z.abs (L' - zlen qv)) (bw (Z.max L' (zlen qv)))) as [Hn|Hn].
    + apply (Hrep L' v' cs'); auto. right. split; auto. apply B.
    + rewrite (D_far F64 fin64 pos64 f64_cost (ds_set F64 d) Hl30 qv Hfq Hql (st_ratio F64 σ) bw Hb1 Hb2 L' v' HL' Hok).
      * intros y Fy _. apply le64; auto using fin_ok, pos_ok, (c_pos_inf _ _ _ f64_cost).
        apply val_fin_bound in Fy. change (ninf F64) with (S754_infinity false). rewrite val_inf. lra.
      * change (num F64) with spec_float in *. rewrite Z.max_comm. lia.
Qed.
Lemma ready_out_of_reach : ready_asks -> (forall L v cs, 2 <= L <= set_len (ds_set F64 d) -> In (v, cs) (f L) -> ~ in_reach (st_ratio F64 σ) (zlen qv) L) ->
  api_match F64 σ i q ix a e = Bad F64 NullDeref.
Proof.
  intros A Hno. destruct (ready_use A) as (bw & B & Hcm & Hfq).
  destruct A as (R & _ & _ & _ & Hlen & Hc & _ & Q & Hql).
  apply (rready_none F64 fin64 pos64 f64_cost not_better64 nb64_le nb64_drop nb64_down σ i d data f q ix a e qv bw R Hc Q Hfq Hql B Hcm).
  intros L v cs HL Hin. change (num F64) with spec_float in *. destruct (Z.lt_ge_cases (bw (Z.max L (zlen qv))) (Z.abs (L - zlen qv))); auto. exfalso.
  apply (Hno L v cs HL Hin). exists (bw (Z.max (zlen qv) L)). split; [apply B; lia|]. rewrite (Z.max_comm (zlen qv) L). lia.
Qed.
End Ready.

Section Loaded.
Context (writable : string -> bool) (σ : st F64) (i : Z) (t : tset) (data : list spec_float) (f : Z -> list (list spec_float * list coord)).
Context (q ix a e : Z) (qv : list spec_float).
(** The session, the groups of the file and the query. *)
Definition asks : Prop :=
  loaded_earlier writable σ i t data f /\ Forall small64 data /\ Forall small64 qv /\
  (forall L v cs, 2 <= L <= set_len t -> In (v, cs) (f L) -> Forall small64 v) /\
  set_len t <= 2 ^ 20 /\ 1 <= set_count t /\ ratio_ok64 (st_ratio F64 σ) (set_len t) /\
  query_is F64 σ q ix a e qv /\ 2 <= zlen qv <= set_len t.

Lemma asks_use : asks -> exists d, ready_asks σ i d data f q ix a e qv /\ ds_set F64 d = t.
Proof.
  intros (Hl & Hd & Hq & Hv & Hlen & Hc & Hr & Q & Hql). destruct (loaded_rready _ _ _ _ _ _ Hl ltac:(lia) ltac:(lia)) as (_ & d & R & <-).
  exists d. split; auto. do 8 (split; [assumption|]). assumption.
Qed.

Theorem C57_match_loaded : asks -> (exists L v cs, 2 <= L <= set_len t /\ In (v, cs) (f L) /\ in_reach (st_ratio F64 σ) (zlen qv) L) ->
  exists σ' c L p v cs, api_match F64 σ i q ix a e = Done F64 σ' (VCand F64 c) /\ denotes F64 (st_heap F64 σ') t data c L p /\
    In (v, cs) (f L) /\
    ((cs = [] /\ p = (0, 0) /\ cand_dist c = ninf F64) \/
     (In p cs /\ dtw_is F64 (st_ratio F64 σ) qv (sub_values F64 data (set_len t) L p) (cand_dist c) /\ lt F64 (cand_dist c) (ninf F64) /\
      forall p', In p' cs -> exists w, dtw_is F64 (st_ratio F64 σ) qv (sub_values F64 data (set_len t) L p') w /\ not_better64 (cand_dist c) w)) /\
    exists d, dtw_is F64 (st_ratio F64 σ) qv v d /\ lt F64 d (ninf F64) /\
      forall L' v' cs', 2 <= L' <= set_len t -> In (v', cs') (f L') ->
        exists w, dtw_is F64 (st_ratio F64 σ) qv v' w /\ not_better64 d w.
Proof. intros A H. destruct (asks_use A) as (d & R & Et). rewrite <- Et in *. exact (ready_match σ i d data f q ix a e qv R H). Qed.
(** Files whose groups all have members: the match is a member of the group. *)
Theorem C57_match_member : asks -> (exists L v cs, 2 <= L <= set_len t /\ In (v, cs) (f L) /\ in_reach (st_ratio F64 σ) (zlen qv) L) ->
  (forall L v cs, 2 <= L <= set_len t -> In (v, cs) (f L) -> cs <> []) ->
  exists σ' c L p v cs, api_match F64 σ i q ix a e = Done F64 σ' (VCand F64 c) /\ denotes F64 (st_heap F64 σ') t data c L p /\
    In (v, cs) (f L) /\ In p cs /\ dtw_is F64 (st_ratio F64 σ) qv (sub_values F64 data (set_len t) L p) (cand_dist c) /\
    lt F64 (cand_dist c) (ninf F64) /\
    (forall p', In p' cs -> exists w, dtw_is F64 (st_ratio F64 σ) qv (sub_values F64 data (set_len t) L p') w /\ not_better64 (cand_dist c) w) /\
    exists d, dtw_is F64 (st_ratio F64 σ) qv v d /\ lt F64 d (ninf F64) /\
      forall L' v' cs', 2 <= L' <= set_len t -> In (v', cs') (f L') ->
        exists w, dtw_is F64 (st_ratio F64 σ) qv v' w /\ not_better64 d w.
Proof.
  intros A H Hne. destruct (C57_match_loaded A H) as (σ' & c & L & p & v & cs & E & Dn & Hin & Hm & Hd).
  exists σ', c, L, p, v, cs. split; auto. split; auto. split; auto. destruct Hm as [(Hcs & _)|(H1 & H2 & H3 & H4)].
  - exfalso. apply (Hne L v cs); auto. exact (proj1 Dn).
  - auto.
Qed.
(** No group within reach: undefined behaviour. *)
Theorem C57_out_of_reach : asks -> (forall L v cs, 2 <= L <= set_len t -> In (v, cs) (f L) -> ~ in_reach (st_ratio F64 σ) (zlen qv) L) ->
  api_match F64 σ i q ix a e = Bad F64 NullDeref.
Proof. intros A H. destruct (asks_use A) as (d & R & Et). rewrite <- Et in *. exact (ready_out_of_reach σ i d data f q ix a e qv R H). Qed.
End Loaded.

(** ** Cases: two series 0 1 and 5 6; the file has a group with the representative 5 6 (and members), a group without members, no group. *)
Definition empty_file : text := T_ "1 4 2 2" ++ [nl] ++ T_ "2 3" ++ [nl] ++ T_ "euclidean" ++ [nl] ++ T_ "1" ++ [nl] ++ T_ "5 6 " ++ [nl] ++ T_ "0 " ++ [nl].
Definition no_file : text := T_ "1 4 2 2" ++ [nl] ++ T_ "2 3" ++ [nl] ++ T_ "euclidean" ++ [nl] ++ T_ "0" ++ [nl].
Lemma rr_56 : map rr (map f64_ofZ [5; 6]) = map f64_ofZ [5; 6].
Proof. vm_compute. reflexivity. Qed.
Lemma loads_asks t f : (exists thr, group_file t thr 2 2 (T_ "euclidean") f) -> sized 2 f -> members_exist 2 2 f -> listed_once 2 f ->
  (forall L v cs, 2 <= L <= 2 -> In (v, cs) (f L) -> Forall small64 v) ->
  exists σ, step F64 F64_IO (fun _ => true) (file_st t) (OpLoadGroup F64 0 "g") = Done F64 σ (VInt F64 (group_total f 2)) /\
    asks (fun _ => true) σ 0 (ds_set F64 file_ds) (map f64_ofZ [0; 1; 5; 6]) f 0 1 (-1) (-1) (map f64_ofZ [5; 6]) /\ st_ratio F64 σ = nzero F64.
Proof.
  intros (thr & Hg) H1 H2 H3 H4.
  destruct (C40_file (fun _ => true) (file_st t) 0 file_ds (map f64_ofZ [0; 1; 5; 6]) "g" t thr (T_ "euclidean") f (file_dataset t) ltac:(cbn; lia) eq_refl Hg (or_introl eq_refl) H1 H2 H3)
    as (σ & d' & gs & E & D' & Ed & _ & _ & _ & _ & _ & _ & Hr).
  exists σ. split; [exact E|]. split; [|exact Hr]. split; [|split; [|split; [|split; [|split; [|split; [|split; [|split]]]]]]].
  - exists (file_st t), file_ds, "g"%string, t, thr, (T_ "euclidean"), σ, (VInt F64 (group_total f 2)), [].
    split; [|split; [apply file_dataset|split; [reflexivity|split; [reflexivity|split; [exact Hg|split; [exact H1|split; [exact H2|split; [exact H3|split; [exact E|split; [constructor|reflexivity]]]]]]]]]].
    assert (Hone : forall i d, checkDatasetIndex F64 (file_st t) i = Ok d -> i = 0 /\ d = file_ds).
    { intros i d Hc. assert (i = 0). { destruct (check_inv F64 _ _ _ Hc) as (R & _). unfold zlen in R. cbn in R. lia. }
      subst i. split; auto. injection Hc as <-. reflexivity. }
    split.
    + intros i d Hc b Hb. destruct (Hone i d Hc) as (_ & ->). injection Hb as <-. eexists. reflexivity.
    + intros i j d d'' b Hc Hc' _ _. destruct (Hone i d Hc), (Hone j d'' Hc'). congruence.
  - now apply small64_Zs.
  - now apply small64_Zs.
  - exact H4.
  - cbn. lia.
  - cbn. lia.
  - rewrite Hr. change (st_ratio F64 (file_st t)) with (S754_zero false). split; [apply fin64b_spec; reflexivity|].
    replace (val (S754_zero false)) with 0%R by reflexivity. split; [lra|]. rewrite Rmult_0_r. apply IZR_le. unfold int_max. lia.
  - exists d', (map f64_ofZ [0; 1; 5; 6]). split; auto. rewrite Ed. split; [cbn; lia|]. left. cbn. repeat split; lia.
  - cbn. lia.
Qed.
Lemma reach_case : in_reach (nzero F64) 2 2.
Proof. exists 0. split; [vm_compute; reflexivity|cbn; lia]. Qed.
Lemma one_small cs L v c : In (v, c) (one_group cs L) -> Forall small64 v.
Proof. unfold one_group. rewrite rr_56. destruct (L =? 2); [|intros []]. intros [E|[]]. apply (f_equal fst) in E. cbn [fst] in E. subst v. now apply small64_Zs. Qed.

Example C57_case : exists σ, asks (fun _ => true) σ 0 (ds_set F64 file_ds) (map f64_ofZ [0; 1; 5; 6]) (one_group [(1, 0); (0, 0)]) 0 1 (-1) (-1) (map f64_ofZ [5; 6]) /\
  (exists L v cs, 2 <= L <= 2 /\ In (v, cs) (one_group [(1, 0); (0, 0)] L) /\ in_reach (st_ratio F64 σ) 2 L) /\
  forall L v cs, 2 <= L <= 2 -> In (v, cs) (one_group [(1, 0); (0, 0)] L) -> cs <> [].
Proof.
  destruct C40_file_case as (_ & _ & H1 & H2 & H3 & H4).
  destruct (loads_asks ok_file _ H1 H2 H3 H4 (fun L v cs _ => one_small _ L v cs)) as (σ & _ & A & Er). exists σ. split; [exact A|]. split.
  - exists 2. eexists _, _. split; [lia|]. split; [left; reflexivity|]. rewrite Er. exact reach_case.
  - intros L v cs _ H. unfold one_group in H. destruct (L =? 2); [|destruct H]. destruct H as [E|[]]. injection E as _ <-. discriminate.
Qed.
(** A group without members: the answer is the first subsequence, at an infinite distance, although it is no member of a group. *)
Theorem C57_empty_group_witness : exists σ σ' c, asks (fun _ => true) σ 0 (ds_set F64 file_ds) (map f64_ofZ [0; 1; 5; 6]) (one_group []) 0 1 (-1) (-1) (map f64_ofZ [5; 6]) /\
  api_match F64 σ 0 0 1 (-1) (-1) = Done F64 σ' (VCand F64 c) /\ denotes F64 (st_heap F64 σ') (ds_set F64 file_ds) (map f64_ofZ [0; 1; 5; 6]) c 2 (0, 0) /\
  cand_dist c = S754_infinity false.
Proof.
  assert (Hg : exists thr, group_file empty_file thr 2 2 (T_ "euclidean") (one_group [])) by file_tac empty_file.
  destruct (loads_asks empty_file (one_group []) Hg (one_sized [])) as (σ & _ & A & Er).
  - intros L v cs c _ H Hc. unfold one_group in H. destruct (L =? 2); [|destruct H]. destruct H as [E|[]]. injection E as _ <-. destruct Hc.
  - intros L _. unfold one_group. destruct (L =? 2); constructor.
  - intros L v cs _. apply one_small.
  - destruct (C57_match_loaded _ _ _ _ _ _ _ _ _ _ _ A) as (σ' & c & L & p & v & cs & E & Dn & Hin & Hm & _).
    + exists 2. eexists _, _. split; [cbn; lia|]. split; [left; reflexivity|]. rewrite Er. exact reach_case.
    + exists σ, σ', c. split; [exact A|]. split; [exact E|]. unfold one_group in Hin. destruct (Z.eqb_spec L 2) as [->|]; [|destruct Hin].
      destruct Hin as [Ei|[]]. injection Ei as _ <-. destruct Hm as [(_ & -> & Hd)|([] & _)]. split; [exact Dn|exact Hd].
Qed.
(** A file without groups: the match dereferences a null pointer. *)
Theorem C57_no_group_witness : exists σ, asks (fun _ => true) σ 0 (ds_set F64 file_ds) (map f64_ofZ [0; 1; 5; 6]) (fun _ => []) 0 1 (-1) (-1) (map f64_ofZ [5; 6]) /\
  api_match F64 σ 0 0 1 (-1) (-1) = Bad F64 NullDeref.
Proof.
  assert (Hg : exists thr, group_file no_file thr 2 2 (T_ "euclidean") (fun _ => [])).
  { destruct (header_dec no_file 1 (f64_ofZ 4) 2 2) as (y & H & _); [apply prints_Z; [auto|lia]|lia|lia|lia|vm_compute; reflexivity|vm_compute; reflexivity|vm_compute; reflexivity|vm_compute; reflexivity|vm_compute; exact I|].
    exists y; eexists _, _, _, _, _; split; [exact H|]; split; [int_tac|]; split; [int_tac|]; split; [apply fw_dec; [vm_compute; reflexivity|discriminate]|].
    change (lengths 2) with [2]; eexists; split; [|reflexivity]; eexists; split; [int_tac|]; reflexivity. }
  destruct (loads_asks no_file (fun _ => []) Hg) as (σ & _ & A & Er); try (intros L v cs; intros; contradiction).
  - intros L _. constructor.
  - exists σ. split; [exact A|]. apply (C57_out_of_reach _ _ _ _ _ _ _ _ _ _ _ A). intros L v cs _ [].
Qed.
