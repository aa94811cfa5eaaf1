(** * Property C65: how far from the best the answer of a match can be.

    [reach m r] (ApproxProofs.v) is [Z.min m (2 * r + 1)]. *)
From Coq Require Import ZArith Bool Reals Lra Lia SpecFloat String Sorted Permutation List.
From Flocq Require Import Core.
From Verif Require Import Outcome Num RX Lemire Distance TimeSeries Text Dataset Groups Api Laws F64Base RXLaws F64Laws Spec SafeDist Band Numeric Metric.
From Verif Require Import TsProofs TraverseProofs GroupSpec GroupProofs GlobalGroup GroupFacts MatchProofs SimProofs SessionProofs SessionMatch.
From Verif Require Import Properties_Distance Properties_Groups Properties_Match ApproxProofs.
Import ListNotations.
Open Scope Z_scope.

(** ** The warped distance of a query to two series of equal length. *)
Lemma warped_rx ratio (q y : list R) r : pair_ok RX dat_rx 2 ratio (map Fin q) (map Fin y) r ->
  let M := Z.max (zlen q) (zlen y) in
  ((forall p, ~ warp_path r (zlen q - 1) (zlen y - 1) p) /\ dtw_is RX ratio (map Fin q) (map Fin y) PInf) \/
  (exists p, warp_path r (zlen q - 1) (zlen y - 1) p /\
     dtw_is RX ratio (map Fin q) (map Fin y) (Fin (sqrt (along q y p) / IZR (2 * M))) /\
     forall p', warp_path r (zlen q - 1) (zlen y - 1) p' -> (along q y p <= along q y p')%R).
Proof.
  intros P M. destruct (C03_warped_is_optimum_exact _ _ _ _ P) as ((C & HC & E) & _).
  destruct P as (_ & _ & L1 & L2 & _). change (@zlen (num RX)) with (@zlen rx) in *. rewrite !zlen_map in *. fold M in E.
  assert (HM : (0 < IZR (2 * M))%R) by (apply IZR_lt; lia).
  destruct HC as [((p & Hp & Ep) & Hmin)|(Hno & ->)]; change (@zlen (num RX)) with (@zlen rx) in *; rewrite !zlen_map in *.
  - right. exists p. split; auto. split.
    + unfold dtw_is. rewrite E. rewrite path_cost_rx in Ep. rewrite <- Ep. f_equal. cbn [nsqrt RX rx_sqrt].
      destruct (Rlt_dec (along q y p) 0) as [H|_]; [pose proof (along_pos q y p); lra|].
      cbn [ndiv nofZ RX rx_div]. destruct (Req_EM_T (IZR (2 * M)) 0); [lra|]. reflexivity.
    + intros p' Hp'. specialize (Hmin p' Hp'). rewrite <- Ep, !path_cost_rx in Hmin. now apply leb_rx.
  - left. split; auto. unfold dtw_is. rewrite E. f_equal. cbn [nsqrt ninf RX rx_sqrt ndiv nofZ rx_div].
    destruct (Rlt_dec (IZR (2 * M)) 0); [lra|reflexivity].
Qed.
Lemma warped_change ratio (q y y' : list R) r p : pair_ok RX dat_rx 2 ratio (map Fin q) (map Fin y) r -> zlen y' = zlen y ->
  warp_path r (zlen q - 1) (zlen y - 1) p ->
  (sqrt (along q y' p) / IZR (2 * Z.max (zlen q) (zlen y)) <=
   sqrt (along q y p) / IZR (2 * Z.max (zlen q) (zlen y)) +
   sqrt (ssq y y' / IZR (zlen y)) * (sqrt (IZR (reach (zlen q) r) * IZR (zlen y)) / IZR (2 * Z.max (zlen q) (zlen y))))%R.
Proof.
  intros (_ & _ & L1 & L2 & _ & Hr) Hy Hp. change (@zlen (num RX)) with (@zlen rx) in *. rewrite !zlen_map in *.
  assert (HM : (0 < IZR (2 * Z.max (zlen q) (zlen y)))%R) by (apply IZR_lt; lia).
  assert (Hn : (0 < IZR (zlen y))%R) by (apply IZR_lt; lia).
  assert (HK : (0 <= IZR (reach (zlen q) r))%R) by (apply IZR_le; unfold reach; lia).
  assert (E : (sqrt (ssq y y' / IZR (zlen y)) * sqrt (IZR (reach (zlen q) r) * IZR (zlen y)) = sqrt (IZR (reach (zlen q) r) * ssq y y'))%R).
  { rewrite <- sqrt_mult.
    - f_equal. field. lra.
    - apply Rmult_le_pos; [apply ssq_pos|]. now apply Rlt_le, Rinv_0_lt_compat.
    - nra. }
  pose proof (along_change q y y' p r (zlen q) (zlen y) Hr eq_refl eq_refl Hy ltac:(lia) ltac:(lia) Hp) as A.
  unfold Rdiv in *. rewrite <- Rmult_assoc, E. rewrite <- Rmult_plus_distr_r. apply Rmult_le_compat_r; auto.
  now apply Rlt_le, Rinv_0_lt_compat.
Qed.
Lemma factor_half m r n : 2 <= m -> 2 <= n -> 0 <= r ->
  (0 <= sqrt (IZR (reach m r) * IZR n) / IZR (2 * Z.max m n) <= / 2)%R.
Proof.
  intros Hm Hn Hr. assert (HM : (0 < IZR (Z.max m n))%R) by (apply IZR_lt; lia).
  assert (S : (sqrt (IZR (reach m r) * IZR n) <= IZR (Z.max m n))%R).
  { rewrite <- (sqrt_square (IZR (Z.max m n))) by lra. apply sqrt_le_1_alt.
    rewrite <- !mult_IZR. apply IZR_le. unfold reach. nia. }
  rewrite mult_IZR. split.
  - apply Rmult_le_pos; [apply sqrt_pos|]. apply Rlt_le, Rinv_0_lt_compat. lra.
  - apply Rmult_le_reg_r with (2 * IZR (Z.max m n))%R; [lra|]. unfold Rdiv. rewrite Rmult_assoc, Rinv_l by lra. lra.
Qed.

Theorem C65_warped_close_exact : forall ratio (q y y' : list (num RX)) r (x : R),
  pair_ok RX dat_rx 2 ratio q y r -> Forall dat_rx y' -> zlen y' = zlen y -> dist_is RX y y' (Fin x) ->
  (dtw_is RX ratio q y (ninf RX) /\ dtw_is RX ratio q y' (ninf RX)) \/
  exists w w' : R, dtw_is RX ratio q y (Fin w) /\ dtw_is RX ratio q y' (Fin w') /\
    (Rabs (w' - w) <= x * (sqrt (IZR (Z.min (zlen q) (2 * r + 1)) * IZR (zlen y)) / IZR (2 * Z.max (zlen q) (zlen y))))%R /\
    (Rabs (w' - w) <= x / 2)%R.
Proof.
  change (num RX) with rx. intros ratio q y y' r x P Dy' Hy Hx. pose proof P as (Dq & Dy & L1 & L2 & HB & Hr).
  change (num RX) with rx in *. rewrite <- (Fin_rv q Dq), <- (Fin_rv y Dy) in P.
  assert (P' : pair_ok RX dat_rx 2 ratio (map Fin (map rv q)) (map Fin (map rv y')) r).
  { destruct P as (A & B & C & D & E & F). change (num RX) with rx in *. split; auto. split; [apply Fin_dat|].
    change (num RX) with rx in *. rewrite !zlen_map in *. rewrite Hy. auto. }
  pose proof (pairwise_rx (map rv y) (map rv y')) as X. rewrite !zlen_map in X. specialize (X ltac:(lia) Hy).
  rewrite !Fin_rv in X by auto. unfold dist_is in Hx. change PInf with (ninf RX) in X. rewrite X in Hx. injection Hx as Hx.
  pose proof (ssq_sym (map rv y') (map rv y)) as Sy.
  pose proof (warped_rx _ _ _ _ P) as W. pose proof (warped_rx _ _ _ _ P') as W'.
  rewrite !zlen_map, !Fin_rv in W by auto. rewrite !zlen_map, !Fin_rv, Hy in W' by auto. cbv zeta in *.
  destruct W as [(No & E)|(p & Hp & E & Hmin)], W' as [(No' & E')|(p' & Hp' & E' & Hmin')].
  - left. auto.
  - elim (No p' Hp').
  - elim (No' p Hp).
  - right. eexists _, _. split; [exact E|]. split; [exact E'|].
    pose proof (warped_change ratio (map rv q) (map rv y) (map rv y') r p P) as A.
    pose proof (warped_change ratio (map rv q) (map rv y') (map rv y) r p' P') as B.
    rewrite !zlen_map in *. specialize (A Hy Hp). rewrite Hy in B. specialize (B eq_refl Hp'). rewrite Sy in B. rewrite Hx in A, B.
    destruct (factor_half (zlen q) r (zlen y) ltac:(lia) ltac:(lia) Hr) as (F1 & F2).
    assert (HM : (0 < / IZR (2 * Z.max (zlen q) (zlen y)))%R) by (apply Rinv_0_lt_compat, IZR_lt; lia).
    pose proof (Rmult_le_compat_r _ _ _ (Rlt_le _ _ HM) (sqrt_le_1_alt _ _ (Hmin p' Hp'))) as M1.
    pose proof (Rmult_le_compat_r _ _ _ (Rlt_le _ _ HM) (sqrt_le_1_alt _ _ (Hmin' p Hp))) as M2.
    assert (X0 : (0 <= x)%R) by (rewrite <- Hx; apply sqrt_pos).
    unfold reach in *. unfold Rdiv in *. match goal with |- (Rabs ?d <= ?b /\ _)%R => assert (Q : (Rabs d <= b)%R) end.
    { apply Rabs_le. lra. }
    split; auto. apply Rle_trans with (1 := Q). apply Rmult_le_compat_l; auto.
Qed.

(** ** The groups that a match searches are those that the grouping made. *)
Lemma earlier_groups (N : NumOps) IO writable (dat pos : num N -> Prop) (σ : st N) i thr t data :
  grouped_earlier N IO writable σ i thr t data -> set_len t <= 2 ^ 30 -> Laws.lt N (half_of N thr) (ninf N) ->
  exists σ0 d σ1 n gs, grouped N σ0 i thr σ1 n gs /\ dataset N σ0 i d data /\ ds_set N d = t /\
    forall L, 2 <= L <= set_len t -> exists gm, groups_now N σ i t data L gm /\ groups_are N (st_heap N σ1) t data gs L gm.
Proof.
  intros (σ0 & d & σ1 & n & gs & ops & Wf & D & <- & G & Q & E) Hlen Hinf.
  destruct (grouped_ready N dat pos σ0 i thr σ1 n gs d data G D Hlen Hinf) as (gmf & d1 & R & E1 & E2 & Eg).
  assert (W1 : wf N σ1).
  { destruct G as (clock & d' & G & _). eapply (step_wf N IO writable σ0 (OpGroup N i thr clock)); auto.
    cbn [step]. now rewrite G. }
  destruct (run_ready N IO writable ops σ1 σ i d1 data gmf W1 R Q E) as (d2 & R2 & E3 & E4).
  exists σ0, d, σ1, n, gs. do 3 (split; [assumption || reflexivity|]). intros L HL. exists (gmf L). split.
  - rewrite <- E1, <- E3. apply (ready_now N σ i d2 data gmf L); auto. rewrite E3, E1. exact HL.
  - destruct (ready_groups_are N _ _ _ _ _ R) as (gs' & Eg' & H). replace gs' with gs in * by congruence.
    rewrite E1 in H. now apply H.
Qed.

(** ** The answer of a match is at most a quarter of the threshold above the best. *)
Theorem C65_within_quarter_exact : forall IO writable σ i thr t data q ix a e qv,
  ask_rx IO writable σ i thr t data q ix a e qv ->
  exists σ' c, api_match RX σ i q ix a e = Done RX σ' (VCand RX c) /\
    forall L p, 2 <= L <= set_len t -> is_sub (set_count t) (set_len t) L p ->
      dtw_is RX (st_ratio RX σ) qv (sub_values RX data (set_len t) L p) (ninf RX) \/
      exists d w : R, cand_dist c = Fin d /\ dtw_is RX (st_ratio RX σ) qv (sub_values RX data (set_len t) L p) (Fin w) /\
        (0 <= d <= w + Rmax thr 0 / 4)%R.
Proof.
  intros IO writable σ i thr t data q ix a e qv A.
  destruct (C27_as_good_as_representatives_exact _ _ _ _ _ _ _ _ _ _ _ _ A) as (σ' & c & E & Hrep).
  exists σ', c. split; auto. intros L p HL Hp.
  pose proof A as (G & Hd & Hq & Hlen & Hcnt & Hr & Q & Hql).
  destruct (earlier_groups RX IO writable dat_rx pos_rx σ i (Fin thr) t data G Hlen (half_rx_inf thr))
    as (σ0 & d0 & σ1 & n & gs & G0 & D0 & <- & Hg). destruct (Hg L HL) as (gm & Gn & Ga).
  assert (HG : exact_grouped σ0 i thr σ1 n gs d0 data) by (split; auto).
  assert (Hgm : exact_groups σ1 gs d0 data L gm) by (split; auto).
  destruct (exact_rules _ _ _ _ _ _ _ _ HG L gm Hgm) as (_ & Hne & Hv & R & LW & Hsz & _).
  assert (Hin : In p (concat gm)) by now apply Hv. apply in_concat in Hin as (ms & Hms & Hpm).
  destruct (exact_members _ _ _ _ _ _ _ _ HG L gm Hgm ms p Hms Hpm) as (Vp & Vh).
  destruct (exact_dist _ _ _ _ _ _ _ _ HG L gm Hgm _ _ _ Vp Vh Vh) as (x & y & z & E1 & _ & _ & E4 & Dx & _ & _ & Px & _ & Zx).
  assert (Hx : (x <= Rmax thr 0 / 2)%R).
  { apply in_zget in Hms as (k & _ & Hk). destruct (r_radius _ _ _ _ _ _ _ _ R LW k ms p Hk Hpm) as [Eq|H].
    - rewrite <- Eq in Zx. rewrite (proj2 Zx eq_refl). pose proof (Rmax_r thr 0). lra.
    - rewrite E4, half_rx in H. apply leb_rx in H. pose proof (Rmax_l thr 0). lra. }
  destruct (Hrep L gm ms HL Gn Hms) as ((wr & Dr & Hle) & _).
  assert (K : forall u, valid (ds_set RX d0) L u -> zlen (sub_values RX data (set_len (ds_set RX d0)) L u) = L).
  { intros u Hu. apply (vals_len RX (ds_set RX d0) data); auto; lia. }
  assert (F : forall u, Forall dat_rx (sub_values RX data (set_len (ds_set RX d0)) L u)) by (intros u; apply (vals_dat RX dat_rx pos_rx); auto).
  destruct (band_fun_rx _ _ Hr ltac:(lia)) as (bw & B & _).
  destruct (B (Z.max (zlen qv) L) ltac:(lia)) as (B1 & B2).
  assert (P : pair_ok RX dat_rx 2 (st_ratio RX σ) qv (sub_values RX data (set_len (ds_set RX d0)) L p) (bw (Z.max (zlen qv) L))).
  { split; auto. split; auto. rewrite K by auto. split; [change (num RX) with rx in *; lia|]. split; [lia|]. split; [auto|lia]. }
  destruct (C65_warped_close_exact _ _ _ _ _ x P (F (hd (0, 0) ms)) ltac:(now rewrite !K) Dx)
    as [(I1 & I2)|(w & w' & W1 & W2 & _ & W3)]; [now left|]. right.
  unfold dtw_is in *. rewrite W2 in Dr. injection Dr as <-.
  destruct (C26_best_group_best_member_exact _ _ _ _ _ _ _ _ _ _ _ _ A) as (σ2 & c2 & L2 & p2 & _ & _ & E2 & Dn & Dc & _).
  rewrite E in E2. injection E2 as <- <-.
  destruct (use_rx _ _ _ _ _ _ _ _ _ _ _ _ A) as (_ & _ & _ & _ & _ & _ & _ & _ & _ & _ & _ & _ & _ & _ & _ & Hall & _).
  destruct Dn as (HL2 & Hp2 & _). destruct (Hall L2 p2 HL2 Hp2) as (Dw & Pw). unfold dtw_is in Dc, Dw. rewrite Dw in Dc. injection Dc as Ec.
  rewrite Ec in Pw. destruct Pw as [Pw|(dr & Pw & P0)]; rewrite Pw in Hle.
  - unfold le in Hle. cbn in Hle. discriminate.
  - exists dr, w. split; auto. split; auto. apply leb_rx in Hle. apply Rabs_le_inv in W3. lra.
Qed.
(** Asking for the values of a subsequence of the dataset. *)
Theorem C65_copy_exact : forall IO writable σ i thr t data q ix a e qv,
  ask_rx IO writable σ i thr t data q ix a e qv ->
  forall L p, 2 <= L <= set_len t -> is_sub (set_count t) (set_len t) L p -> qv = sub_values RX data (set_len t) L p ->
  exists σ' c (d : R), api_match RX σ i q ix a e = Done RX σ' (VCand RX c) /\ cand_dist c = Fin d /\ (0 <= d <= Rmax thr 0 / 4)%R.
Proof.
  intros IO writable σ i thr t data q ix a e qv A L p HL Hp Eq.
  destruct (C65_within_quarter_exact _ _ _ _ _ _ _ _ _ _ _ _ A) as (σ' & c & E & H).
  assert (Ew : dtw_is RX (st_ratio RX σ) qv qv (Fin 0)).
  { destruct A as (_ & _ & Hq & Hlen & _ & Hr & _ & Hql). destruct (band_fun_rx _ _ Hr ltac:(lia)) as (bw & B & _).
    change (num RX) with rx in *. destruct (B (zlen qv)) as (B1 & B2); [lia|].
    apply (wd_self RX dat_rx pos_rx rx_cost) with (bw (zlen qv)); auto; change (num RX) with rx in *; try (unfold klen; lia).
    apply (c_pos_inf _ _ _ rx_cost). }
  destruct (H L p HL Hp) as [I|(d & w & Ed & Dw & Hd)]; rewrite <- Eq in *; unfold dtw_is in *.
  - rewrite Ew in I. discriminate I.
  - rewrite Ew in Dw. injection Dw as <-. exists σ', c, d. split; auto. split; auto. lra.
Qed.
(** With a threshold of zero, or a negative one, the answer is a best subsequence. *)
Theorem C65_best_exact : forall IO writable σ i thr t data q ix a e qv,
  ask_rx IO writable σ i thr t data q ix a e qv -> (thr <= 0)%R ->
  exists σ' c L p, api_match RX σ i q ix a e = Done RX σ' (VCand RX c) /\
    denotes RX (st_heap RX σ') t data c L p /\
    dtw_is RX (st_ratio RX σ) qv (sub_values RX data (set_len t) L p) (cand_dist c) /\
    forall L' p', 2 <= L' <= set_len t -> is_sub (set_count t) (set_len t) L' p' ->
      exists w, dtw_is RX (st_ratio RX σ) qv (sub_values RX data (set_len t) L' p') w /\ le RX (cand_dist c) w.
Proof.
  intros IO writable σ i thr t data q ix a e qv A Ht.
  destruct (C65_within_quarter_exact _ _ _ _ _ _ _ _ _ _ _ _ A) as (σ' & c & E & H).
  destruct (C26_best_group_best_member_exact _ _ _ _ _ _ _ _ _ _ _ _ A) as (σ2 & c2 & L & p & _ & _ & E2 & Dn & Dc & _).
  rewrite E in E2. injection E2 as <- <-. exists σ', c, L, p. split; auto. split; auto. split; auto.
  intros L' p' HL' Hp'. destruct (H L' p' HL' Hp') as [I|(d & w & Ed & Dw & Hd)].
  - exists (ninf RX). split; auto. apply (c_le_inf _ _ _ rx_cost).
    destruct (use_rx _ _ _ _ _ _ _ _ _ _ _ _ A) as (_ & _ & _ & _ & _ & _ & _ & _ & _ & _ & _ & _ & _ & _ & _ & Hall & _).
    destruct Dn as (HL & Hp & _). destruct (Hall L p HL Hp) as (Dw & Pw). unfold dtw_is in Dc, Dw. rewrite Dw in Dc. injection Dc as <-. exact Pw.
  - exists (Fin w). split; auto. rewrite Ed. apply leb_rx. rewrite Rmax_right in Hd by auto. lra.
Qed.

(** In binary64, with a threshold whose half is negative: the match is an exhaustive search. *)
Theorem C65_exhaustive : forall IO writable σ i thr t data q ix a e qv,
  ask64 IO writable σ i thr t data q ix a e qv -> ok64 thr -> lt F64 (ndiv F64 thr (f64_ofZ 2)) (nzero F64) ->
  exists σ' c L p, api_match F64 σ i q ix a e = Done F64 σ' (VCand F64 c) /\
    denotes F64 (st_heap F64 σ') t data c L p /\
    dtw_is F64 (st_ratio F64 σ) qv (sub_values F64 data (set_len t) L p) (cand_dist c) /\
    forall L' p', 2 <= L' <= set_len t -> is_sub (set_count t) (set_len t) L' p' ->
      exists w, dtw_is F64 (st_ratio F64 σ) qv (sub_values F64 data (set_len t) L' p') w /\ not_better64 (cand_dist c) w.
Proof.
  intros IO writable σ i thr t data q ix a e qv A Ok Hneg.
  destruct (C26_best_group_best_member _ _ _ _ _ _ _ _ _ _ _ _ A)
    as (σ' & c & L & p & gm & ms & E & Dn & Dc & Gn & Hms & Hp & Hmem & d & Dd & Hrep).
  exists σ', c, L, p. split; auto. split; auto. split; auto.
  pose proof A as (G & Hh & Hd & _ & Hlen & _).
  assert (Hfd : Forall fin64 data) by (eapply Forall_impl; [|exact Hd]; apply small_fin).
  destruct (earlier_groups F64 IO writable fin64 pos64 σ i thr t data G ltac:(lia) Hh)
    as (σ0 & d0 & σ1 & n & gs & G0 & D0 & <- & Hg).
  assert (Sg : forall L gm ms, 2 <= L <= set_len (ds_set F64 d0) -> groups_now F64 σ i (ds_set F64 d0) data L gm -> In ms gm -> exists p, ms = [p]).
  { intros L0 gm0 ms0 HL0 Gn0 Hms0. destruct (Hg L0 HL0) as (gm1 & Gn1 & Ga1).
    destruct (use64 _ _ _ _ _ _ _ _ _ _ _ _ A) as (_ & _ & _ & gmf & d1 & _ & _ & _ & _ & _ & _ & R & Ed & _).
    rewrite <- Ed in Gn0, Gn1, HL0. apply (ready_now F64 σ i d1 data gmf L0 _ R HL0) in Gn0. apply (ready_now F64 σ i d1 data gmf L0 _ R HL0) in Gn1. subst gm0 gm1.
    rewrite Ed in HL0. eapply (C23_negative_threshold σ0 i thr σ1 n gs d0 data); eauto. lia. }
  assert (HL : 2 <= L <= set_len (ds_set F64 d0)) by apply Dn.
  destruct (Sg L gm ms HL Gn Hms) as (p0 & ->). destruct Hp as [->|[]]. cbn [hd] in Dd.
  unfold dtw_is in Dd, Dc. rewrite Dc in Dd. injection Dd as <-.
  intros L' p' HL' Hp'. destruct (Hg L' HL') as (gm' & Gn' & Ga').
  assert (Hin : exists ms', In ms' gm' /\ In p' ms').
  { destruct (grouped_rules_of F64 fin64 pos64 _ _ _ _ _ _ _ _ G0 D0 ltac:(lia) Hh L' gm' HL' Ga') as (_ & _ & Hv & _).
    apply Hv in Hp'. apply in_concat in Hp' as (ms' & H1 & H2). eauto. }
  destruct Hin as (ms' & Hms' & Hpm). destruct (Sg L' gm' ms' HL' Gn' Hms') as (p1 & ->). destruct Hpm as [->|[]].
  exact (Hrep L' gm' [p'] HL' Gn' Hms').
Qed.

(** The hypotheses hold for the dataset of Properties_Groups.v, for every threshold; the query is series
    1 from 1 to 3, whose values are the subsequence (1, 1) of length 2. *)
Example C65_case : forall thr, (exists σ,
  ask_rx (mkNumIO RX (fun _ _ => []) (fun _ => UB NullDeref) (fun t => (Fin 0, false, t))) (fun _ => true)
    σ 0 thr ex_set (map ex_Fin ex_ints) 0 1 1 3 (map ex_Fin [1; 3])) /\
  is_sub (set_count ex_set) (set_len ex_set) 2 (1, 1) /\
  map ex_Fin [1; 3] = sub_values RX (map ex_Fin ex_ints) (set_len ex_set) 2 (1, 1).
Proof. intros thr. split; [apply C26_case|]. split; [|reflexivity]. repeat split; cbn; lia. Qed.
Example C65_case_negative : exists σ,
  ask64 F64_IO (fun _ => true) σ 0 (f64_ofZ (-1)) ex_set (map f64_ofZ ex_ints) 0 1 1 3 (map f64_ofZ [1; 3]) /\
  ok64 (f64_ofZ (-1)) /\ lt F64 (ndiv F64 (f64_ofZ (-1)) (f64_ofZ 2)) (nzero F64).
Proof.
  destruct (ex_earlier F64 F64_IO (fun _ => true) fin64 pos64 f64_ofZ (f64_ofZ (-1))) as (σ & G & Hr & Q); [vm_compute; reflexivity|].
  exists σ. split; [|split; [split; [reflexivity|discriminate]|reflexivity]]. split; auto. split; [vm_compute; reflexivity|].
  split; [now apply small64_Zs|]. split; [now apply small64_Zs|]. split; [cbn; lia|]. split; [cbn; lia|]. rewrite Hr. split.
  - unfold ratio_ok64. change (nzero F64) with (S754_zero false). split; [split; [reflexivity|exact I]|].
    cbn [val]. split; [lra|]. rewrite Rmult_0_r. apply IZR_le. unfold int_max. lia.
  - split; auto. unfold zlen. cbn. lia.
Qed.
(** A pair of series at distance 1 whose warped distances to a query differ. *)
Example C65_case_close : let z := map Fin [0%R; 0%R] in let o := map Fin [1%R; 1%R] in
  pair_ok RX dat_rx 2 (Fin 1) z z 1 /\ Forall dat_rx o /\ dist_is RX z o (Fin 1) /\
  dtw_is RX (Fin 1) z z (Fin 0) /\ ~ dtw_is RX (Fin 1) z o (Fin 0).
Proof.
  cbv zeta. assert (HB : calculateWarpingBandSize RX (Fin 1) 2 = Ok 1).
  { unfold calculateWarpingBandSize, floor_int. cbn [nfloor nmul nofZ RX rx_mul]. rewrite Int_part_Zfloor.
    replace (2 * 1)%R with (IZR 2) by (simpl; lra). rewrite Zfloor_IZR. reflexivity. }
  assert (P : forall a, a = [0%R; 0%R] \/ a = [1%R; 1%R] -> pair_ok RX dat_rx 2 (Fin 1) (map Fin [0%R; 0%R]) (map Fin a) 1).
  { intros a Ha. split; [apply Fin_dat|]. split; [apply Fin_dat|]. destruct Ha as [->| ->]; (split; [unfold zlen; cbn; lia|]; split; [unfold zlen; cbn; lia|]; split; [exact HB|lia]). }
  split; [apply P; auto|]. split; [apply Fin_dat|]. split.
  { unfold dist_is. change (ninf RX) with PInf. rewrite pairwise_rx by (unfold zlen; cbn; lia).
    unfold zlen. cbn [ssq length Z.of_nat Pos.of_succ_nat Pos.succ]. unfold sq. replace ((0 - 1) * (0 - 1) + ((0 - 1) * (0 - 1) + 0))%R with 2%R by lra.
    unfold Rdiv. rewrite Rinv_r by lra. now rewrite sqrt_1. }
  split.
  - destruct (P [0%R; 0%R]) as (_ & D & _ & _ & _); auto.
    apply (wd_self RX dat_rx pos_rx rx_cost) with 1; auto; try (unfold klen, zlen; cbn; lia). apply (c_pos_inf _ _ _ rx_cost).
  - intros H. destruct (warped_rx _ _ _ _ (P [1%R; 1%R] ltac:(auto))) as [(_ & E)|(p & Hp & E & _)]; unfold dtw_is in *; rewrite H in E.
    + discriminate E.
    + injection E as E. unfold zlen in E, Hp. cbn in E, Hp.
      assert (A : (1 <= along [0%R; 0%R] [1%R; 1%R] p)%R).
      { unfold along. inversion Hp as [|x y p0 x' y' Hp0 S B]; subst. rewrite lsum_app.
        assert (0 <= lsum (fun c : Z * Z => sq (ra [0%R; 0%R] (fst c) - ra [1%R; 1%R] (snd c))) p0)%R by (apply lsum_pos; intros; apply sq_pos).
        match goal with |- (1 <= ?u + _)%R => set (l := u) in * end.
        cbn [lsum fst snd]. unfold ra, sq. change (Z.to_nat 1) with 1%nat. cbn [nth]. lra. }
      assert (1 <= sqrt (along [0%R; 0%R] [1%R; 1%R] p))%R by (rewrite <- sqrt_1 at 1; apply sqrt_le_1_alt; exact A). lra.
Qed.
