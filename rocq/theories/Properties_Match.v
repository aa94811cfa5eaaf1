(** * Properties C25-C30: matching.

    The vocabulary is in GroupSpec.v: [grouped_earlier] (the dataset was grouped, and since then there
    was any history of operations that do not change it), [query_is] (the values of the query),
    [denotes] (the subsequence that a result stands for), [dtw_is] (warpedDistance without dropout),
    [groups_now] (the members of the groups, each list headed by the representative). *)
From Coq Require Import ZArith Bool Reals Lra Lia SpecFloat String Sorted Permutation List.
From Flocq Require Import Core.
From Verif Require Import Outcome Num RX Lemire Distance TimeSeries Text Dataset Groups Api Laws F64Base RXLaws F64Laws Spec SafeDist Band Numeric Metric.
From Verif Require Import TsProofs TraverseProofs GroupSpec GroupProofs GlobalGroup GroupFacts MatchProofs SimProofs SessionProofs SessionMatch Properties_Groups.
Import ListNotations.
Open Scope Z_scope.

(** ** Ratios: no conversion of length * ratio to int overflows. *)
Definition ratio_ok64 (x : spec_float) (len : Z) : Prop :=
  fin64 x /\ (0 <= val x)%R /\ (IZR len * val x <= IZR int_max)%R.
Definition ratio_ok_rx (x : rx) (len : Z) : Prop :=
  exists r, x = Fin r /\ (0 <= r)%R /\ (IZR len * r <= IZR int_max)%R.

Lemma band_fun64 x len : ratio_ok64 x len -> len <= 2 ^ 26 -> exists bw, band_fun F64 x len bw.
Proof.
  intros (Fx & Px & Bx) Hlen. destruct (Rle_lt_dec (val x) 1) as [H|H].
  - exists (band64 x). assert (R : ratio64 x) by (split; auto). split.
    + intros k Hk. assert (klen k) by (unfold klen; lia). split; [now apply band64_Ok|]. now apply band64_range.
    + intros k H1 H2. apply band64_step; auto. lia.
  - exists (fun k => k - 1). split; [|intros; lia]. intros k Hk. split; [|lia]. apply band64_above1; auto; try (unfold klen; lia); try lra.
    apply Rle_trans with (2 := Bx). apply Rmult_le_compat_r; auto. apply IZR_le. lia.
Qed.
Lemma band_fun_rx x len : ratio_ok_rx x len -> len <= 2 ^ 30 -> exists bw, band_fun RX x len bw.
Proof.
  intros (r & -> & Px & Bx) Hlen. destruct (Rle_lt_dec r 1) as [H|H].
  - exists (band_rx r). split.
    + intros k Hk. assert (klen k) by (unfold klen; lia). split; [now apply band_rx_Ok|]. now apply band_rx_range.
    + intros k H1 H2. now apply band_rx_step.
  - exists (fun k => k - 1). split; [|intros; lia]. intros k Hk. split; [|lia].
    unfold calculateWarpingBandSize, floor_int. cbn [nfloor nmul nofZ RX rx_mul]. rewrite Int_part_Zfloor.
    assert (K : (1 <= IZR k)%R) by (apply IZR_le; lia).
    assert (K' : (IZR k <= IZR len)%R) by (apply IZR_le; lia).
    assert (B1 : k <= Zfloor (IZR k * r)) by (apply Zfloor_lub; nra).
    assert (B2 : Zfloor (IZR k * r) <= int_max).
    { apply le_IZR. apply Rle_trans with (IZR k * r)%R; [apply Zfloor_lb|]. nra. }
    destruct (int_min <=? _) eqn:E1; [|unfold int_min in E1; lia].
    destruct (_ <=? int_max) eqn:E2; [|lia]. cbn [andb bind]. f_equal. lia.
Qed.

(** ** binary64 and exact arithmetic: the hypotheses of the theorems. *)
Definition ask64 (IO : NumIO F64) writable (σ : st F64) i thr t data q ix a e qv : Prop :=
  grouped_earlier F64 IO writable σ i thr t data /\ lt F64 (ndiv F64 thr (f64_ofZ 2)) (ninf F64) /\
  Forall small64 data /\ Forall small64 qv /\ set_len t <= 2 ^ 20 /\ 1 <= set_count t /\
  ratio_ok64 (st_ratio F64 σ) (set_len t) /\
  query_is F64 σ q ix a e qv /\ 2 <= zlen qv <= set_len t.
Definition ask_rx (IO : NumIO RX) writable (σ : st RX) i (thr : R) t data q ix a e qv : Prop :=
  grouped_earlier RX IO writable σ i (Fin thr) t data /\
  Forall dat_rx data /\ Forall dat_rx qv /\ set_len t <= 2 ^ 30 /\ 1 <= set_count t /\
  ratio_ok_rx (st_ratio RX σ) (set_len t) /\
  query_is RX σ q ix a e qv /\ 2 <= zlen qv <= set_len t.

(** "[w] is not better than [d] by more than one unit in the last place": no double lies strictly
    between. *)
Definition not_better64 (d w : spec_float) : Prop := forall y, fin64 y -> lt F64 y d -> le F64 y w.

Lemma use64 IO writable σ i thr t data q ix a e qv : ask64 IO writable σ i thr t data q ix a e qv ->
  exists bw, band_fun F64 (st_ratio F64 σ) (set_len t) bw /\
  exists σ' gmf d L gi ms c b, let W := W F64 t data qv (st_ratio F64 σ) in
  api_match F64 σ i q ix a e = Done F64 σ' (VCand F64 (mkCand (view F64 t b L c) (W L c))) /\
  ready F64 σ i d data gmf /\ ds_set F64 d = t /\
  found F64 not_better64 t data qv (st_ratio F64 σ) bw gmf L gi ms c /\
  denotes F64 (st_heap F64 σ') t data (mkCand (view F64 t b L c) (W L c)) L c /\
  (forall L c, 2 <= L <= set_len t -> valid t L c ->
     dtw_is F64 (st_ratio F64 σ) qv (sub_values F64 data (set_len t) L c) (W L c) /\ pos64 (W L c)) /\
  (forall L c, 2 <= L <= set_len t -> valid t L c -> bw (Z.max (zlen qv) L) < Z.abs (L - zlen qv) -> W L c = ninf F64).
Proof.
  intros (G & Hh & Hd & Hq & Hlen & Hc & Hr & Q & Hql).
  assert (Hfd : Forall fin64 data) by (eapply Forall_impl; [|exact Hd]; apply small_fin).
  assert (Hfq : Forall fin64 qv) by (eapply Forall_impl; [|exact Hq]; apply small_fin).
  assert (Hsz : set_count t * set_len t <= zlen data).
  { destruct G as (? & d & ? & ? & ? & ? & ? & (_ & b & _ & _ & _ & Hs) & <- & _). exact Hs. }
  destruct (band_fun64 _ _ Hr ltac:(lia)) as (bw & B). exists bw. split; auto.
  apply (earlier_match F64 IO writable fin64 pos64 f64_cost not_better64) with (thr := thr); auto; try lia.
  - intros x w Px Pw Hle y Fy Hy. apply le64; auto using fin_ok, pos_ok.
    apply lt64 in Hy; auto using fin_ok, pos_ok. apply le64 in Hle; auto using pos_ok. lra.
  - intros x C0 k Hk Px PC Hlt y Fy Hy. now apply (drop_margin x C0 k).
  - intros x x' w Px Px' Pw Hle Hnb y Fy Hy. apply Hnb; auto. apply lt64; auto using fin_ok, pos_ok.
    apply lt64 in Hy; auto using fin_ok, pos_ok. apply le64 in Hle; auto using pos_ok. lra.
  - intros L c HL Hv. apply no_overflow_64; auto.
    + apply Forall_forall. intros x Hx. rewrite Forall_forall in Hd. apply Hd. eapply in_slice; eauto.
    + change (num F64) with spec_float in *. lia.
    + change (num F64) with spec_float in *. rewrite (vals_len F64 t data) by (auto; lia). lia.
Qed.
Lemma use_rx IO writable σ i thr t data q ix a e qv : ask_rx IO writable σ i thr t data q ix a e qv ->
  exists bw, band_fun RX (st_ratio RX σ) (set_len t) bw /\
  exists σ' gmf d L gi ms c b, let W := W RX t data qv (st_ratio RX σ) in
  api_match RX σ i q ix a e = Done RX σ' (VCand RX (mkCand (view RX t b L c) (W L c))) /\
  ready RX σ i d data gmf /\ ds_set RX d = t /\
  found RX (le RX) t data qv (st_ratio RX σ) bw gmf L gi ms c /\
  denotes RX (st_heap RX σ') t data (mkCand (view RX t b L c) (W L c)) L c /\
  (forall L c, 2 <= L <= set_len t -> valid t L c ->
     dtw_is RX (st_ratio RX σ) qv (sub_values RX data (set_len t) L c) (W L c) /\ pos_rx (W L c)) /\
  (forall L c, 2 <= L <= set_len t -> valid t L c -> bw (Z.max (zlen qv) L) < Z.abs (L - zlen qv) -> W L c = ninf RX).
Proof.
  intros (G & Hd & Hq & Hlen & Hc & Hr & Q & Hql).
  destruct (band_fun_rx _ _ Hr ltac:(lia)) as (bw & B). exists bw. split; auto.
  pose proof (c_pos_ord _ _ _ rx_cost) as PO.
  apply (earlier_match RX IO writable dat_rx pos_rx rx_cost (le RX)) with (thr := Fin thr); auto; try lia.
  - intros x C0 k Hk Px PC Hlt. change (lt RX (euc_inorm_dtw RX x k) C0) in Hlt. unfold lt in Hlt.
    rewrite (e_dtw _ _ _ rx_exact) in Hlt by auto. apply (lt_le RX pos_rx PO); auto. apply (c_ndtw_pos _ _ _ rx_cost); auto.
  - intros x x' w Px Px' Pw H1 H2. exact (ord_trans _ _ PO x' x w Px' Px Pw H1 H2).
  - apply half_rx_inf.
  - intros L c HL Hv. apply no_overflow_rx; auto.
    apply Forall_forall. intros x Hx. rewrite Forall_forall in Hd. apply Hd. eapply in_slice; eauto.
Qed.

(** ** C25 *)
Theorem C25_match_is_real : forall IO writable σ i thr t data q ix a e qv,
  ask64 IO writable σ i thr t data q ix a e qv ->
  exists σ' c, api_match F64 σ i q ix a e = Done F64 σ' (VCand F64 c) /\
    exists L p, denotes F64 (st_heap F64 σ') t data c L p /\
      dtw_is F64 (st_ratio F64 σ) qv (sub_values F64 data (set_len t) L p) (cand_dist c) /\
      lt F64 (cand_dist c) (ninf F64).
Proof.
  intros IO writable σ i thr t data q ix a e qv A.
  destruct (use64 _ _ _ _ _ _ _ _ _ _ _ _ A) as (bw & B & σ' & gmf & d & L & gi & ms & c & b & E & R & Et & F & Dn & Hall & Hfar).
  destruct F as (HL & _ & _ & Hv & Hlt & _). eexists σ', _. split; [exact E|]. exists L, c. split; auto. split; auto.
  cbn [cand_dist]. now apply Hall.
Qed.
(** Whether a match returns or throws, the data of all datasets, the files and the groups as sets of
    members stay as they were; see also C31 and C45. *)

(** ** C26 *)
Theorem C26_best_group_best_member_exact : forall IO writable σ i thr t data q ix a e qv,
  ask_rx IO writable σ i thr t data q ix a e qv ->
  exists σ' c L p gm ms, api_match RX σ i q ix a e = Done RX σ' (VCand RX c) /\
    denotes RX (st_heap RX σ') t data c L p /\
    dtw_is RX (st_ratio RX σ) qv (sub_values RX data (set_len t) L p) (cand_dist c) /\
    groups_now RX σ i t data L gm /\ In ms gm /\ In p ms /\
    (forall p', In p' ms -> exists w, dtw_is RX (st_ratio RX σ) qv (sub_values RX data (set_len t) L p') w /\
       le RX (cand_dist c) w) /\
    exists d, dtw_is RX (st_ratio RX σ) qv (sub_values RX data (set_len t) L (hd (0, 0) ms)) d /\
      forall L' gm' ms', 2 <= L' <= set_len t -> groups_now RX σ i t data L' gm' -> In ms' gm' ->
        exists w, dtw_is RX (st_ratio RX σ) qv (sub_values RX data (set_len t) L' (hd (0, 0) ms')) w /\ le RX d w.
Proof.
  intros IO writable σ i thr t data q ix a e qv A.
  destruct (use_rx _ _ _ _ _ _ _ _ _ _ _ _ A) as (bw & B & σ' & gmf & d & L & gi & ms & c & b & E & R & <- & F & Dn & Hall & Hfar).
  destruct F as (HL & Hgi & Hin & Hv & Hlt & Hlh & Hmem & Hrep).
  assert (Hne : forall L ms, 2 <= L <= set_len (ds_set RX d) -> In ms (gmf L) -> ms <> [] /\ forall c, In c ms -> valid (ds_set RX d) L c).
  { intros L0 ms0 HL0 Hms0. apply (ready_members RX _ _ _ _ _ R L0 ms0 HL0 Hms0). }
  apply zget_in in Hgi as Hms.
  eexists σ', _, L, c, (gmf L), ms. split; [exact E|]. split; [exact Dn|].
  split; [now apply Hall|]. split; [now apply (ready_now RX σ i d data gmf)|]. split; auto. split; auto.
  destruct (Hne _ _ HL Hms) as (N1 & N2). split.
  - intros p' Hp'. exists (W RX (ds_set RX d) data qv (st_ratio RX σ) L p'). split; [apply Hall; auto|]. cbn [cand_dist]. now apply Hmem.
  - exists (W RX (ds_set RX d) data qv (st_ratio RX σ) L (hd (0, 0) ms)). split; [apply Hall; auto using hd_in|].
    intros L' gm' ms' HL' Hg' Hms'. apply (ready_now RX σ i d data gmf L' gm' R HL') in Hg' as ->.
    destruct (Hne _ _ HL' Hms') as (N1' & N2').
    exists (W RX (ds_set RX d) data qv (st_ratio RX σ) L' (hd (0, 0) ms')). split; [apply Hall; auto using hd_in|].
    destruct (Z_le_dec (Z.abs (L' - zlen qv)) (bw (Z.max L' (zlen qv)))) as [Hn|Hn].
    + apply Hrep; auto. right. split; auto. apply B.
    + rewrite (Hfar L' (hd (0, 0) ms')); auto using hd_in; [|rewrite Z.max_comm; lia].
      apply (c_le_inf _ _ _ rx_cost). apply Hall; auto using hd_in.
Qed.
(** In binary64: as long as no double lies strictly between. *)
Theorem C26_best_group_best_member : forall IO writable σ i thr t data q ix a e qv,
  ask64 IO writable σ i thr t data q ix a e qv ->
  exists σ' c L p gm ms, api_match F64 σ i q ix a e = Done F64 σ' (VCand F64 c) /\
    denotes F64 (st_heap F64 σ') t data c L p /\
    dtw_is F64 (st_ratio F64 σ) qv (sub_values F64 data (set_len t) L p) (cand_dist c) /\
    groups_now F64 σ i t data L gm /\ In ms gm /\ In p ms /\
    (forall p', In p' ms -> exists w, dtw_is F64 (st_ratio F64 σ) qv (sub_values F64 data (set_len t) L p') w /\
       not_better64 (cand_dist c) w) /\
    exists d, dtw_is F64 (st_ratio F64 σ) qv (sub_values F64 data (set_len t) L (hd (0, 0) ms)) d /\
      forall L' gm' ms', 2 <= L' <= set_len t -> groups_now F64 σ i t data L' gm' -> In ms' gm' ->
        exists w, dtw_is F64 (st_ratio F64 σ) qv (sub_values F64 data (set_len t) L' (hd (0, 0) ms')) w /\ not_better64 d w.
Proof.
  intros IO writable σ i thr t data q ix a e qv A.
  destruct (use64 _ _ _ _ _ _ _ _ _ _ _ _ A) as (bw & B & σ' & gmf & d & L & gi & ms & c & b & E & R & <- & F & Dn & Hall & Hfar).
  destruct F as (HL & Hgi & Hin & Hv & Hlt & Hlh & Hmem & Hrep).
  assert (Hne : forall L ms, 2 <= L <= set_len (ds_set F64 d) -> In ms (gmf L) -> ms <> [] /\ forall c, In c ms -> valid (ds_set F64 d) L c).
  { intros L0 ms0 HL0 Hms0. apply (ready_members F64 _ _ _ _ _ R L0 ms0 HL0 Hms0). }
  apply zget_in in Hgi as Hms.
  eexists σ', _, L, c, (gmf L), ms. split; [exact E|]. split; [exact Dn|].
  split; [now apply Hall|]. split; [now apply (ready_now F64 σ i d data gmf)|]. split; auto. split; auto.
  destruct (Hne _ _ HL Hms) as (N1 & N2). split.
  - intros p' Hp'. exists (W F64 (ds_set F64 d) data qv (st_ratio F64 σ) L p'). split; [apply Hall; auto|]. cbn [cand_dist]. now apply Hmem.
  - exists (W F64 (ds_set F64 d) data qv (st_ratio F64 σ) L (hd (0, 0) ms)). split; [apply Hall; auto using hd_in|].
    intros L' gm' ms' HL' Hg' Hms'. apply (ready_now F64 σ i d data gmf L' gm' R HL') in Hg' as ->.
    destruct (Hne _ _ HL' Hms') as (N1' & N2').
    exists (W F64 (ds_set F64 d) data qv (st_ratio F64 σ) L' (hd (0, 0) ms')). split; [apply Hall; auto using hd_in|].
    destruct (Z_le_dec (Z.abs (L' - zlen qv)) (bw (Z.max L' (zlen qv)))) as [Hn|Hn].
    + apply Hrep; auto. right. split; auto. apply B.
    + rewrite (Hfar L' (hd (0, 0) ms')); auto using hd_in; [|rewrite Z.max_comm; lia].
      intros y Fy _. apply le64; auto using fin_ok, pos_ok, (c_pos_inf _ _ _ f64_cost).
      apply val_fin_bound in Fy. change (ninf F64) with (S754_infinity false). rewrite val_inf. lra.
Qed.

(** ** C27 *)
Theorem C27_as_good_as_representatives_exact : forall IO writable σ i thr t data q ix a e qv,
  ask_rx IO writable σ i thr t data q ix a e qv ->
  exists σ' c, api_match RX σ i q ix a e = Done RX σ' (VCand RX c) /\
    forall L gm ms, 2 <= L <= set_len t -> groups_now RX σ i t data L gm -> In ms gm ->
      (exists w, dtw_is RX (st_ratio RX σ) qv (sub_values RX data (set_len t) L (hd (0, 0) ms)) w /\ le RX (cand_dist c) w) /\
      (qv = sub_values RX data (set_len t) L (hd (0, 0) ms) -> cand_dist c = Fin 0).
Proof.
  intros IO writable σ i thr t data q ix a e qv A.
  destruct (C26_best_group_best_member_exact _ _ _ _ _ _ _ _ _ _ _ _ A)
    as (σ' & c & L & p & gm & ms & E & Dn & Dc & G & Hms & Hp & Hmem & d & Dd & Hrep).
  exists σ', c. split; auto. intros L' gm' ms' HL' G' Hms'.
  destruct (use_rx _ _ _ _ _ _ _ _ _ _ _ _ A) as (bw & B & _ & gmf & d0 & _ & _ & _ & _ & _ & _ & R & <- & _ & _ & Hall & _).
  assert (HL : 2 <= L <= set_len (ds_set RX d0)) by apply Dn.
  apply (ready_now RX σ i d0 data gmf L' gm' R HL') in G' as E'. apply (ready_now RX σ i d0 data gmf L gm R HL) in G as Eg. subst gm gm'.
  destruct (ready_members RX _ _ _ _ _ R L ms HL Hms) as (N1 & V1). destruct (ready_members RX _ _ _ _ _ R L' ms' HL' Hms') as (N2 & V2).
  destruct (Hmem (hd (0, 0) ms) (hd_in _ _ N1)) as (w1 & D1 & L1). unfold dtw_is in *. rewrite Dd in D1. injection D1 as <-.
  destruct (Hrep L' (gmf L') ms' HL' G' Hms') as (w & Dw & L2).
  assert (Pos : forall L c w, 2 <= L <= set_len (ds_set RX d0) -> valid (ds_set RX d0) L c ->
    warpedDistance RX (st_ratio RX σ) qv (sub_values RX data (set_len (ds_set RX d0)) L c) (ninf RX) = Ok w -> pos_rx w).
  { intros L0 c0 w0 H0 V0 E0. destruct (Hall L0 c0 H0 V0) as (D0 & P0). unfold dtw_is in D0. rewrite E0 in D0. now injection D0 as ->. }
  assert (Hc : le RX (cand_dist c) w).
  { apply (ord_trans _ _ (c_pos_ord _ _ _ rx_cost) _ d _); eauto using hd_in. }
  split; [eauto|]. intros Eq. assert (Hz : w = Fin 0).
  { assert (Ew : warpedDistance RX (st_ratio RX σ) qv qv (ninf RX) = Ok (nzero RX)).
    { destruct A as (_ & _ & Hq & Hlen & _ & _ & _ & Hql). destruct B as (B & _). change (num RX) with rx in *.
      destruct (B (zlen qv)) as (B1 & B2); [lia|]. apply (wd_self RX dat_rx pos_rx rx_cost) with (bw (zlen qv)); auto; change (num RX) with rx in *; try (unfold klen; lia).
      apply (c_pos_inf _ _ _ rx_cost). }
    rewrite <- Eq, Ew in Dw. now injection Dw as <-. }
  subst w. assert (Pc : pos_rx (cand_dist c)) by (eapply (Pos L p); eauto).
  apply (c_antisym _ _ _ rx_cost); auto.
  - apply (c_pos_0 _ _ _ rx_cost).
  - now apply (c_0_le _ _ _ rx_cost).
Qed.

(** ** C28 *)
Definition c28_file : text := T_ "0 0
9 9
11 11
0 0
0 0
".
Definition c28_history : list (op F64) := [OpLoad F64 "f" 0 0 (T_ " "); OpGroup F64 0 (f64_ofZ 20) (fun _ => false)].
Definition c28_start : st F64 := st_init F64 (fun _ => Some c28_file).
Theorem C28_copy_not_found_witness : exists σ d data qv σ' c,
  run F64 F64_IO (fun _ => true) c28_start c28_history = Some σ /\
  dataset F64 σ 0 d data /\ qv = sub_values F64 data (set_len (ds_set F64 d)) 2 (1, 0) /\
  is_sub (set_count (ds_set F64 d)) (set_len (ds_set F64 d)) 2 (1, 0) /\
  query_is F64 σ 0 1 (-1) (-1) qv /\
  api_match F64 σ 0 0 1 (-1) (-1) = Done F64 σ' (VCand F64 c) /\
  lt F64 (f64_ofZ 0) (cand_dist c) /\
  dtw_is F64 (st_ratio F64 σ) qv (sub_values F64 data (set_len (ds_set F64 d)) 2 (1, 0)) (f64_ofZ 0).
Proof.
  assert (X : match run F64 F64_IO (fun _ => true) c28_start c28_history with
    | Some σ => match checkDatasetIndex F64 σ 0 with
      | Ok d => match set_buf (ds_set F64 d) with
        | Some b => match heap_get F64 (st_heap F64 σ) b with
          | Ok data => match api_match F64 σ 0 0 1 (-1) (-1) with
            | Done _ _ (VCand _ c) => (set_count (ds_set F64 d) =? 5) && (set_len (ds_set F64 d) =? 2) && (10 <=? zlen data) &&
                nltb F64 (f64_ofZ 0) (cand_dist c) &&
                (let qv := sub_values F64 data 2 2 (1, 0) in
                 match warpedDistance F64 (st_ratio F64 σ) qv qv (ninf F64) with Ok (S754_zero false) => true | _ => false end)
            | _ => false end
          | _ => false end
        | _ => false end
      | _ => false end
    | _ => false end = true) by (vm_compute; reflexivity).
  revert X. generalize (run F64 F64_IO (fun _ => true) c28_start c28_history). intros r X.
  destruct r as [σ|]; [|discriminate]. destruct (checkDatasetIndex F64 σ 0) as [d| | |] eqn:E2; try discriminate.
  destruct (set_buf (ds_set F64 d)) as [b|] eqn:E3; [|discriminate]. destruct (heap_get F64 (st_heap F64 σ) b) as [data| | |] eqn:E4; try discriminate.
  destruct (api_match _ _ _ _ _ _ _) as [σ' v| | |] eqn:E5; try discriminate. destruct v as [| | | | |c] eqn:Ev; try discriminate.
  apply andb_prop in X as (X & X5). apply andb_prop in X as (X & X4). apply andb_prop in X as (X & X3). apply andb_prop in X as (X1 & X2).
  apply Z.eqb_eq in X1, X2. apply Z.leb_le in X3. cbn zeta in X5.
  destruct (warpedDistance _ _ _ _ _) as [w| | |] eqn:E6; try discriminate. destruct w as [[|]| | |]; try discriminate.
  assert (D : dataset F64 σ 0 d data).
  { split; auto. exists b. rewrite X1, X2. repeat split; auto; lia. }
  exists σ, d, data, (sub_values F64 data 2 2 (1, 0)), σ', c. rewrite X1, X2.
  split; auto. split; auto. split; auto. split; [unfold is_sub; cbn; lia|]. split.
  { exists d, data. split; auto. rewrite X1, X2. split; [lia|]. left. repeat split; lia || auto. }
  split; auto.
Qed.

(** ** C29 *)
(** A request that getBestMatch must reject; [len] is the length of the query asked for. *)
Definition bad_request {N} (s : st N) (r q ix a e : Z) : Prop :=
  (forall d, ~ has_dataset N s r d) \/ (forall d, ~ has_dataset N s q d) \/
  (exists d, has_dataset N s r d /\ ds_groups N d = None) \/
  exists dq, has_dataset N s q dq /\ let t := ds_set N dq in
    (ix < 0 \/ set_count t <= ix \/
     (~ (a < 0 /\ e < 0) /\ ~ (0 <= a < e /\ e <= set_len t)) \/
     (a < 0 /\ e < 0 /\ set_len t <= 1) \/ (0 <= a < e /\ e - a <= 1)).
Theorem C29_bad_request_rejected : forall (σ : st F64) r q ix a e, bad_request σ r q ix a e ->
  exists msg, api_match F64 σ r q ix a e = Exn F64 σ (OnexExn msg).
Proof.
  intros σ r q ix a e H. unfold api_match.
  assert (C : forall k, (exists d, checkDatasetIndex F64 σ k = Ok d /\ has_dataset F64 σ k d) \/
    (exists m, checkDatasetIndex F64 σ k = Throw (OnexExn m) /\ forall d, ~ has_dataset F64 σ k d)).
  { intros k. pose proof (fun d => proj2 (check_iff F64 σ k d)) as X. unfold checkDatasetIndex in *.
    destruct (_ || _) eqn:Ek; [right; eexists; split; [reflexivity|]; intros d Hd; now specialize (X d Hd)|].
    destruct (nth_error _ _) as [[d|]|] eqn:En.
    - left. exists d. split; auto. split; auto. lia.
    - right. eexists; split; [reflexivity|]; intros d (_ & Hd); congruence.
    - right. eexists; split; [reflexivity|]; intros d (_ & Hd); congruence. }
  destruct (C r) as [(d & -> & Hd)|(m & -> & _)]; cbn [lift]; [|eauto].
  destruct (C q) as [(dq & -> & Hdq)|(m & -> & _)]; cbn [lift]; [|eauto].
  unfold getTimeSeries. set (t := ds_set F64 dq) in *.
  destruct (Z.ltb_spec ix 0); cbn [orb lift]; [eauto|]. destruct (Z.leb_spec (set_count t) ix); cbn [orb lift]; [eauto|].
  assert (Cases : (exists d, has_dataset F64 σ r d /\ ds_groups F64 d = None) \/
     ((~ (a < 0 /\ e < 0) /\ ~ (0 <= a < e /\ e <= set_len t)) \/
     (a < 0 /\ e < 0 /\ set_len t <= 1) \/ (0 <= a < e /\ e - a <= 1))).
  { destruct H as [H|[H|[H|(dq' & Hq' & H)]]]; [now apply H in Hd|now apply H in Hdq|auto|].
    right. assert (Edq : dq' = dq) by (destruct Hdq as (_ & U1), Hq' as (_ & U2); congruence). subst dq'. cbn zeta in H. fold t in H.
    destruct H as [H|[H|H]]; [lia|lia|exact H]. }
  assert (U : (exists d, has_dataset F64 σ r d /\ ds_groups F64 d = None) -> ds_groups F64 d = None).
  { intros (d' & (_ & U1) & U2). replace d with d'; auto. destruct Hd as (_ & U3). congruence. }
  destruct (Z.ltb_spec a 0), (Z.ltb_spec e 0); cbn [andb orb lift].
  - destruct Cases as [K|K]; [rewrite (U K); eauto|]. destruct (ds_groups F64 d); [|eauto]. unfold global_getBestMatch. cbn [ts_len].
    destruct (Z.leb_spec (set_len t) 1); [cbn [lift]; eauto|]. lia.
  - eauto.
  - destruct (Z.leb_spec e a); [|lia]. cbn [orb lift]. eauto.
  - destruct (Z.leb_spec e a); [cbn [orb lift]; eauto|]. destruct (Z.ltb_spec (set_len t) e); [cbn [orb lift]; eauto|]. cbn [orb lift].
    destruct Cases as [K|K]; [rewrite (U K); eauto|]. destruct (ds_groups F64 d); [|eauto]. unfold global_getBestMatch. cbn [ts_len].
    destruct (Z.leb_spec (e - a) 1); [cbn [lift]; eauto|]. lia.
Qed.

(** ** C30 *)
Lemma zget_out {A} (l : list A) i : zlen l <= i -> zget l i = UB OutOfBounds.
Proof.
  intros H. unfold zget. pose proof (zlen_nonneg l). destruct (Z.ltb_spec i 0); [lia|].
  now rewrite (proj2 (nth_error_None l _)) by (unfold zlen in *; lia).
Qed.
Theorem C30_long_query_out_of_bounds : forall IO writable (σ : st F64) i thr t data q ix a e qv,
  grouped_earlier F64 IO writable σ i thr t data -> lt F64 (ndiv F64 thr (f64_ofZ 2)) (ninf F64) ->
  query_is F64 σ q ix a e qv -> 2 <= zlen qv <= 2 ^ 26 -> 0 <= set_len t < zlen qv ->
  ratio_ok64 (st_ratio F64 σ) (zlen qv) ->
  api_match F64 σ i q ix a e = Bad F64 OutOfBounds.
Proof.
  intros IO writable σ i thr t data q ix a e qv G Hinf Q Hql Hlong Hr.
  destruct (earlier_ready F64 IO writable fin64 pos64 σ i thr t data G ltac:(lia) Hinf) as (_ & gmf & d & R & Et & _). subst t.
  destruct R as (C & _ & b & gs & B1 & B2 & B3 & B4 & B5 & (B6 & _) & _).
  destruct (query_read F64 _ _ _ _ _ _ Q) as (dq & tq & Cq & Gt & Rt & Lt & Ct).
  destruct (band_fun64 _ _ Hr ltac:(lia)) as (bw & (B & _)).
  unfold api_match. rewrite C. cbn [lift]. rewrite Cq. cbn [lift]. rewrite Gt. cbn [lift]. rewrite B5.
  unfold global_getBestMatch. rewrite Lt. destruct (Z.leb_spec (zlen qv) 1); [lia|]. rewrite B6.
  replace (set_len (ds_set F64 d) + 1 - 1) with (set_len (ds_set F64 d)) by lia.
  assert (Hb : forall k, 1 <= k <= Z.max (zlen qv) (set_len (ds_set F64 d)) -> calculateWarpingBandSize F64 (st_ratio F64 σ) k = Ok (bw k))
    by (intros k Hk; apply B; lia).
  destruct (traverse_inv F64 (st_ratio F64 σ) (zlen qv) (set_len (ds_set F64 d)) bw ltac:(lia) Hb) as (order & E & _).
  destruct (traverse_sound F64 (st_ratio F64 σ) (zlen qv) (set_len (ds_set F64 d)) bw ltac:(lia) Hb order E) as (Hhd & _).
  rewrite E. cbn [bind]. destruct order as [|x order]; [discriminate|]. injection Hhd as ->.
  cbn [for_each]. unfold global_match_step at 1. rewrite zget_out by (rewrite B6; change (num F64) with spec_float in *; lia). reflexivity.
Qed.
(** Queries of length 2 .. itemLength: a match returns. *)
Theorem C30_match_returns : forall IO writable (σ : st F64) i thr t data q ix a e qv,
  ask64 IO writable σ i thr t data q ix a e qv ->
  exists σ' c, api_match F64 σ i q ix a e = Done F64 σ' (VCand F64 c).
Proof.
  intros IO writable σ i thr t data q ix a e qv A. destruct (C25_match_is_real _ _ _ _ _ _ _ _ _ _ _ _ A) as (σ' & c & E & _). eauto.
Qed.

(** ** The hypotheses can be met: the session of Properties_Groups.v after grouping, the query being a
    part of its second series. *)
Lemma ex_wf N f : wf N (ex_st N f).
Proof.
  assert (X : forall i d, checkDatasetIndex N (ex_st N f) i = Ok d -> i = 0 /\ d = mkDS N ex_set None None).
  { intros i d H. apply check_iff in H as (H & E). cbn in E. destruct (Z.to_nat i) as [|[|k]] eqn:Ei; try discriminate.
    injection E as <-. split; auto. lia. }
  split.
  - intros i d H b Hb. destruct (X i d H) as (-> & ->). cbn in Hb. injection Hb as <-. exists (map f ex_ints). reflexivity.
  - intros i j d d' b H1 H2 _ _. destruct (X i d H1), (X j d' H2). congruence.
Qed.
Lemma ex_earlier N IO writable (dat pos : num N -> Prop) f thr : lt N (half_of N thr) (ninf N) ->
  exists σ, grouped_earlier N IO writable σ 0 thr ex_set (map f ex_ints) /\ st_ratio N σ = nzero N /\
    query_is N σ 0 1 1 3 (map f [1; 3]).
Proof.
  intros H. destruct (ex_grouped N dat pos f thr H) as (σ' & n & gs & G). exists σ'. split; [|split].
  - exists (ex_st N f), (mkDS N ex_set None None), σ', n, gs, []. split; [apply ex_wf|]. split; [apply ex_dataset|].
    split; auto.
  - destruct G as (cl & d1 & E & _). unfold api_group in E. change (checkDatasetIndex N (ex_st N f) 0) with (Ok (mkDS N ex_set None None)) in E.
    cbn [lift ds_set] in E. destruct (negb _); [discriminate|]. destruct (global_group _ _ _ _ _ _ _) as [(?, ?)| | |]; try discriminate.
    injection E as <- _. reflexivity.
  - destruct (api_group_inv N _ _ _ _ _ _ _ _ G (ex_dataset N f)) as (Hh & C & _).
    exists (mkDS N ex_set (Some gs) (Some thr)), (map f ex_ints). split.
    + split; auto. exists 0%nat. cbn [ds_set]. rewrite Hh. repeat split; cbn; lia.
    + cbn [ds_set ex_set set_count set_len]. split; [lia|]. right. split; [lia|]. split; [lia|]. reflexivity.
Qed.
Example C25_case : exists σ, ask64 F64_IO (fun _ => true) σ 0 (f64_ofZ 1) ex_set (map f64_ofZ ex_ints) 0 1 1 3 (map f64_ofZ [1; 3]).
Proof.
  destruct (ex_earlier F64 F64_IO (fun _ => true) fin64 pos64 f64_ofZ (f64_ofZ 1)) as (σ & G & Hr & Q); [vm_compute; reflexivity|].
  exists σ. split; auto. split; [vm_compute; reflexivity|].
  split; [now apply small64_Zs|]. split; [now apply small64_Zs|]. split; [cbn; lia|]. split; [cbn; lia|]. rewrite Hr. split.
  - unfold ratio_ok64. change (nzero F64) with (S754_zero false). split; [split; [reflexivity|exact I]|].
    cbn [val]. split; [lra|]. rewrite Rmult_0_r. apply IZR_le. unfold int_max. lia.
  - split; auto. unfold zlen. cbn. lia.
Qed.
Example C26_case : forall thr, exists σ,
  ask_rx (mkNumIO RX (fun _ _ => []) (fun _ => UB NullDeref) (fun t => (Fin 0, false, t))) (fun _ => true)
    σ 0 thr ex_set (map ex_Fin ex_ints) 0 1 1 3 (map ex_Fin [1; 3]).
Proof.
  intros thr. destruct (ex_earlier RX (mkNumIO RX (fun _ _ => []) (fun _ => UB NullDeref) (fun t => (Fin 0, false, t)))
    (fun _ => true) dat_rx pos_rx ex_Fin (Fin thr) (half_rx_inf thr)) as (σ & G & Hr & Q).
  exists σ. split; auto. split; [apply ex_dat|]. split.
  { apply Forall_forall. intros x H. apply in_map_iff in H as (z & <- & _). now exists (IZR z). }
  split; [cbn; lia|]. split; [cbn; lia|]. rewrite Hr. split.
  - exists 0%R. split; [reflexivity|]. split; [lra|]. rewrite Rmult_0_r. apply IZR_le. unfold int_max. lia.
  - split; auto. unfold zlen. cbn. lia.
Qed.
Example C29_case : bad_request (ex_st F64 f64_ofZ) 0 0 1 1 3 /\ bad_request (ex_st F64 f64_ofZ) 7 0 1 1 3 /\
  bad_request (ex_st F64 f64_ofZ) 0 0 1 2 3 /\ bad_request (ex_st F64 f64_ofZ) 0 0 3 (-1) (-1).
Proof.
  assert (D : has_dataset F64 (ex_st F64 f64_ofZ) 0 (mkDS F64 ex_set None None)) by (split; [lia|reflexivity]).
  split; [|split; [|split]].
  - right. right. left. eexists. split; [exact D|reflexivity].
  - left. intros d (_ & H). discriminate H.
  - right. right. right. exists (mkDS F64 ex_set None None). split; auto. cbn. lia.
  - right. right. right. exists (mkDS F64 ex_set None None). split; auto. cbn. lia.
Qed.
