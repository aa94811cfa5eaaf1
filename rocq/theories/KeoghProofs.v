(** * Symmetry, early abandoning, Keogh lower bounds and the cascade, for any arithmetic
    satisfying [CostLaws]. *)
From Coq Require Import ZArith Bool Lia List.
From Verif Require Import Outcome Num Deque Lemire Distance Laws Spec DequeProofs LemireProofs DtwProofs.
Import ListNotations.
Open Scope Z_scope.

(** ** Transposed paths. *)
Definition swap (c : Z * Z) : Z * Z := (snd c, fst c).

Lemma path_swap r i j p : warp_path r i j p -> warp_path r j i (map swap p).
Proof.
  induction 1.
  - constructor.
  - rewrite map_app. cbn. econstructor; eauto.
    + destruct H0 as [?|[?|?]]; [right; left|left|right; right]; lia.
    + lia.
Qed.
Lemma path_nonneg r i j p : warp_path r i j p -> 0 <= i /\ 0 <= j.
Proof. induction 1; [lia|]. destruct H0 as [H0|[H0|H0]]; lia. Qed.
Lemma map_swap_swap p : map swap (map swap p) = p.
Proof. rewrite map_map. rewrite <- (map_id p) at 2. apply map_ext. intros [x y]; reflexivity. Qed.

Section Keogh.
Context (N : NumOps) (dat pos : num N -> Prop) (L : CostLaws N dat pos).
Local Notation T := (num N).
Local Notation lt := (lt N).
Local Notation le := (le N).
Let PO := c_pos_ord _ _ _ L.

Lemma cost_swap a b r i j p : Forall dat a -> Forall dat b -> warp_path r i j p ->
  i < zlen a -> j < zlen b -> path_cost N b a (map swap p) = path_cost N a b p.
Proof.
  intros Ha Hb H. induction H; intros Hi Hj.
  - unfold path_cost; cbn. f_equal. apply (c_sqd_sym _ _ _ L); apply (at_dat N dat); auto; lia.
  - rewrite map_app. cbn [map]. unfold swap at 2. cbn [fst snd].
    rewrite !cost_snoc. pose proof (path_nonneg _ _ _ _ H).
    assert (0 <= i' /\ 0 <= j' /\ i < zlen a /\ j < zlen b) by (destruct H0 as [?|[?|?]]; lia).
    rewrite IHwarp_path by lia. f_equal. apply (c_sqd_sym _ _ _ L); apply (at_dat N dat); auto; lia.
Qed.

Lemma least_cost_swap a b r i j C : Forall dat a -> Forall dat b -> i < zlen a -> j < zlen b ->
  least_cost N a b r i j C -> least_cost N b a r j i C.
Proof.
  intros Ha Hb Hi Hj ((p & Hp & E) & H). split.
  - exists (map swap p). split; [now apply path_swap|]. rewrite (cost_swap a b r i j); auto.
  - intros q Hq. rewrite <- (cost_swap b a r j i q); auto. apply H. now apply path_swap.
Qed.
Lemma dtw_cost_swap a b r C : Forall dat a -> Forall dat b ->
  dtw_cost N a b r C -> dtw_cost N b a r C.
Proof.
  intros Ha Hb [H|(H & E)]; [left|right].
  - apply least_cost_swap; auto; lia.
  - split; auto. intros p Hp. apply (H (map swap p)). now apply path_swap.
Qed.
Lemma no_overflow_swap a b r : Forall dat a -> Forall dat b -> no_overflow N a b r -> no_overflow N b a r.
Proof.
  intros Ha Hb H i j p Hi Hj Hp. rewrite <- (cost_swap b a r i j p); auto.
  apply (H j i); auto. now apply path_swap.
Qed.

(** ** The warped distance. *)
Section WD.
Context (ratio : T) (a b : list T) (r : Z).
Hypothesis Ha : Forall dat a.
Hypothesis Hb : Forall dat b.
Hypothesis Hm : 2 <= zlen a.
Hypothesis Hn : 2 <= zlen b.
Hypothesis Hk : klen (Z.max (zlen a) (zlen b)).
Hypothesis Hband : calculateWarpingBandSize N ratio (Z.max (zlen a) (zlen b)) = Ok r.
Hypothesis Hr : 0 <= r.
Hypothesis Hov : no_overflow N a b r.

Lemma wd_spec d : pos d -> exists C w, dtw_cost N a b r C /\ warpedDistance N ratio a b d = Ok w /\
  (w = euc_norm_dtw N C (Z.max (zlen a) (zlen b)) \/
   (w = ninf N /\ lt (euc_inorm_dtw N d (Z.max (zlen a) (zlen b))) C)).
Proof.
  intros Pd. destruct (dtw_cost_total N dat pos L a b r Ha Hb Hr Hm Hn) as (C & HC).
  destruct (Post_inv _ _ (wd_aux N dat pos L a b r Ha Hb Hr Hov Hm Hn ratio d Hband Hk Pd)) as (w & E & Hw).
  exists C, w. split; auto. split; auto. destruct Hw as [(C' & HC' & ->)|(-> & H)].
  - left. f_equal. apply (dtw_cost_unique N dat pos L a b r Ha Hb Hr); auto.
  - right. auto.
Qed.

Lemma wd_inf : exists C, dtw_cost N a b r C /\
  warpedDistance N ratio a b (ninf N) = Ok (euc_norm_dtw N C (Z.max (zlen a) (zlen b))).
Proof.
  destruct (wd_spec (ninf N) (c_pos_inf _ _ _ L)) as (C & w & HC & E & [->|(_ & H)]).
  - exists C. auto.
  - exfalso. rewrite (c_idtw_inf _ _ _ L) in H by auto. apply (lt_not_le N _ _ H).
    apply (c_le_inf _ _ _ L). apply (dtw_cost_pos N dat pos L a b r); auto.
Qed.

Lemma wd_drop d : pos d -> exists C w, dtw_cost N a b r C /\
  let W := euc_norm_dtw N C (Z.max (zlen a) (zlen b)) in
  warpedDistance N ratio a b (ninf N) = Ok W /\ pos W /\ pos C /\
  warpedDistance N ratio a b d = Ok w /\
  (w = W \/ (w = ninf N /\ lt (euc_inorm_dtw N d (Z.max (zlen a) (zlen b))) C)).
Proof.
  intros Pd. destruct (wd_spec d Pd) as (C & w & HC & E & H). destruct wd_inf as (C' & HC' & E').
  assert (C' = C) by (apply (dtw_cost_unique N dat pos L a b r Ha Hb Hr); auto). subst C'.
  assert (PC : pos C) by (apply (dtw_cost_pos N dat pos L a b r); auto).
  exists C, w. split; auto. cbn. split; auto. split; [apply (c_ndtw_pos _ _ _ L); auto|]. auto.
Qed.

(** INF exactly when no path exists. *)
Lemma wd_inf_iff : warpedDistance N ratio a b (ninf N) = Ok (ninf N) <->
  (forall p, ~ warp_path r (zlen a - 1) (zlen b - 1) p).
Proof.
  destruct wd_inf as (C & HC & E). rewrite E. split.
  - intros Ei. destruct HC as [O|(H & _)]; auto. exfalso.
    assert (lt C (ninf N)) by (apply (opt_fin N a b r Hov _ _ C O); lia).
    assert (PC : pos C) by (apply (opt_pos N dat pos L a b r Ha Hb Hr _ _ C O); lia).
    pose proof (c_ndtw_fin _ _ _ L C _ Hk PC H) as F. inversion Ei as [E2]. rewrite E2 in F.
    apply (lt_not_le N _ _ F). apply (c_le_inf _ _ _ L). apply (c_pos_inf _ _ _ L).
  - intros H. destruct HC as [O|(_ & ->)].
    + destruct O as ((p & Hp & _) & _). elim (H p Hp).
    + now rewrite (c_ndtw_inf _ _ _ L).
Qed.
End WD.

(** Symmetry. *)
Lemma wd_sym ratio a b r : Forall dat a -> Forall dat b -> 2 <= zlen a -> 2 <= zlen b ->
  klen (Z.max (zlen a) (zlen b)) ->
  calculateWarpingBandSize N ratio (Z.max (zlen a) (zlen b)) = Ok r -> 0 <= r ->
  no_overflow N a b r ->
  warpedDistance N ratio a b (ninf N) = warpedDistance N ratio b a (ninf N).
Proof.
  intros Ha Hb Hm Hn Hk Hband Hr Hov.
  destruct (wd_inf ratio a b r) as (C & HC & ->); auto.
  destruct (wd_inf ratio b a r) as (D & HD & ->); auto; try (rewrite Z.max_comm; auto).
  { now apply no_overflow_swap. }
  rewrite (Z.max_comm (zlen b)). f_equal. f_equal.
  apply (dtw_cost_unique N dat pos L a b r Ha Hb Hr); auto. now apply dtw_cost_swap.
Qed.

(** ** Keogh lower bound. *)
Section LB.
Context (a b : list T) (r : Z).
Hypothesis Ha : Forall dat a.
Hypothesis Hb : Forall dat b.
Hypothesis Hr : 0 <= r.
Hypothesis Hm : 1 <= zlen a.
Hypothesis Hn : 1 <= zlen b.
Local Notation c i j := (sqd N (at_ N a i) (at_ N b j)).

(** A path enters column [j] after some cost [x] of earlier columns and pays one of its cells. *)
Lemma path_col i j' p j : warp_path r i j' p -> i < zlen a -> j' < zlen b -> 0 <= j <= j' ->
  exists i0 x, 0 <= i0 < zlen a /\ Z.abs (i0 - j) <= r /\ pos x /\
    ((j = 0 /\ x = nzero N) \/ (exists iq q, warp_path r iq (j - 1) q /\ iq < zlen a /\ x = path_cost N a b q)) /\
    le (nadd N x (c i0 j)) (path_cost N a b p).
Proof.
  intros H. induction H; intros Hi Hj Hjj.
  - assert (j = 0) by lia; subst. exists 0, (nzero N). split; [lia|]. split; [lia|].
    split; [apply (c_pos_0 _ _ _ L)|]. split; auto. unfold path_cost; cbn.
    apply (le_refl N pos PO). apply (c_add_pos _ _ _ L); [apply (c_pos_0 _ _ _ L)|].
    apply (c_pos N dat pos L); auto; lia.
  - pose proof (path_range r Hr _ _ _ H) as (R1 & R2 & R3).
    assert (Hb' : i < zlen a /\ j0 < zlen b) by (destruct H0 as [?|[?|?]]; lia).
    assert (R4 : 0 <= i' /\ 0 <= j') by (destruct H0 as [?|[?|?]]; lia).
    assert (Pp : pos (path_cost N a b p)) by (eapply (cost_pos N dat pos L a b r); eauto; lia).
    assert (Pc : pos (c i' j')) by (apply (c_pos N dat pos L); auto; lia).
    destruct (Z_le_gt_dec j j0).
    + destruct IHwarp_path as (i0 & x & A1 & A2 & A3 & A4 & A5); [lia..|].
      exists i0, x. split; auto. split; auto. split; auto. split; auto.
      rewrite cost_snoc. apply (ord_trans _ _ PO) with (path_cost N a b p); auto.
      * apply (c_add_pos _ _ _ L); auto. apply (c_pos N dat pos L); auto.
        assert (0 <= j < zlen b) by lia. auto.
      * apply (c_add_pos _ _ _ L); auto.
      * apply (add_le_l N dat pos L); auto.
    + assert (j = j' /\ j0 = j' - 1) as (-> & ->) by (destruct H0 as [?|[?|?]]; lia).
      exists i', (path_cost N a b p). split; [lia|]. split; auto. split; auto. split.
      * right. exists i, p. split; auto. split; auto. lia.
      * rewrite cost_snoc. apply (le_refl N pos PO). apply (c_add_pos _ _ _ L); auto.
Qed.

(** Envelopes of [a] for band [r]. *)
Definition envelope (lu : uarray N * uarray N) : Prop :=
  forall k, 0 <= k < zlen a ->
    (exists x, zget (fst lu) k = Ok (Some x) /\
       is_window_min N a (Z.max 0 (k - r)) (Z.min (zlen a - 1) (k + r)) x) /\
    (exists x, zget (snd lu) k = Ok (Some x) /\
       is_window_max N a (Z.max 0 (k - r)) (Z.min (zlen a - 1) (k + r)) x).

Lemma env_exists : Post (generateKeoghLU N a r) envelope.
Proof.
  eapply Post_conseq; [apply (generateKeoghLU_spec N dat (c_dat_ord _ _ _ L)); auto|].
  intros lu (_ & _ & H). exact H.
Qed.

(** [s] is not above the cost of any path reaching column [j - 1]. *)
Definition below (j : Z) (s : T) : Prop :=
  pos s /\ (j = 0 -> s = nzero N) /\
  forall i j' p, warp_path r i j' p -> i < zlen a -> j' < zlen b -> j <= j' + 1 ->
    le s (path_cost N a b p).

Lemma below_step j s g : 0 <= j < zlen b -> below j s -> pos g ->
  (forall i0, 0 <= i0 < zlen a -> Z.abs (i0 - j) <= r -> le g (c i0 j)) ->
  below (j + 1) (nadd N s g).
Proof.
  intros Hj (Ps & Z0 & Bs) Pg Hg. split; [apply (c_add_pos _ _ _ L); auto|]. split; [lia|].
  intros i j' p Hp Hi Hj' Hle.
  destruct (path_col i j' p j Hp Hi Hj' ltac:(lia)) as (i0 & x & A1 & A2 & Px & A4 & A5).
  assert (Pc : pos (c i0 j)) by (apply (c_pos N dat pos L); auto).
  assert (Hs : le s x).
  { destruct A4 as [(-> & ->)|(iq & q & Hq & Hiq & ->)].
    - rewrite Z0 by auto. apply (le_refl N pos PO). apply (c_pos_0 _ _ _ L).
    - eapply Bs; eauto; lia. }
  apply (ord_trans _ _ PO) with (nadd N x (c i0 j)); auto.
  - apply (c_add_pos _ _ _ L); auto.
  - apply (c_add_pos _ _ _ L); auto.
  - eapply (cost_pos N dat pos L a b r); eauto.
  - apply (c_add_mono _ _ _ L); auto.
Qed.
Lemma below_skip j s : 0 <= j < zlen b -> below j s -> below (j + 1) s.
Proof.
  intros Hj H. rewrite <- (c_add_0 _ _ _ L s) by apply H. apply below_step; auto.
  - apply (c_pos_0 _ _ _ L).
  - intros i0 H1 H2. apply (c_0_le _ _ _ L). apply (c_pos N dat pos L); auto.
Qed.

(** The sum is the normalised value of a bound that no path undercuts. *)
Lemma keogh_sum_spec lu d : klen (Z.max (zlen a) (zlen b)) -> envelope lu ->
  Post (keogh_sum N (fst lu) (snd lu) (zlen a) b d) (fun v => exists s, pos s /\
    v = euc_norm_dtw N s (Z.max (zlen a) (zlen b)) /\
    forall C, dtw_cost N a b r C -> le s C).
Proof.
  intros Hk He. unfold keogh_sum.
  set (len := Z.min (zlen a) (zlen b)).
  set (idrop := nmul N _ _).
  apply (Post_seq (fun s => exists j, 0 <= j <= len /\ below j s)).
  - eapply Post_conseq.
    + apply (forb_rule (fun j s => below j s) (fun s => exists j, 0 <= j <= len /\ below j s)).
      * split; [apply (c_pos_0 _ _ _ L)|]. split; auto. intros. apply (c_0_le _ _ _ L).
        eapply (cost_pos N dat pos L a b r); eauto.
      * intros j s Hj Bs. unfold keogh_step. destruct (negb (nltb N s idrop)); [cbn; exists j; split; auto; lia|].
        rewrite ts_at_Ok by lia. cbn [bind].
        destruct (He j ltac:(lia)) as ((lo & El & (kl & Rl & Vl) & Ml) & (up & Eu & (ku & Ru & Vu) & Mu)).
        unfold uget. rewrite Eu. cbn [bind].
        assert (Db : dat (at_ N b j)) by (apply (at_dat N dat); auto; lia).
        assert (Du : dat up) by (subst up; apply (at_dat N dat); auto; lia).
        assert (Dl : dat lo) by (subst lo; apply (at_dat N dat); auto; lia).
        destruct (nltb N up (at_ N b j)) eqn:Eup.
        -- cbn. apply below_step; auto; [lia|apply (c_sqd_pos _ _ _ L); auto|].
           intros i0 H1 H2. assert (Di : dat (at_ N a i0)) by (apply (at_dat N dat); auto).
           rewrite (c_sqd_sym _ _ _ L (at_ N a i0)) by auto.
           apply (c_sqd_up _ _ _ L); auto. apply Mu. lia.
        -- rewrite El. cbn [bind]. destruct (nltb N (at_ N b j) lo) eqn:Elo.
           ++ cbn. apply below_step; auto; [lia|apply (c_sqd_pos _ _ _ L); auto|].
              intros i0 H1 H2. assert (Di : dat (at_ N a i0)) by (apply (at_dat N dat); auto).
              rewrite (c_sqd_sym _ _ _ L (at_ N a i0)) by auto.
              apply (c_sqd_dn _ _ _ L); auto. apply Ml. lia.
           ++ cbn. apply below_skip; auto. lia.
    + intros s [H|H]; auto. exists len. split; [lia|]. now replace len with (Z.max 0 len) by lia.
  - intros s (j & Hj & (Ps & _ & Bs)). cbn. exists s. split; auto. split; auto.
    intros C [((p & Hp & <-) & _)|(_ & ->)].
    + eapply Bs; eauto; lia.
    + apply (c_le_inf _ _ _ L); auto.
Qed.

Lemma keogh_spec ratio d : klen (Z.max (zlen a) (zlen b)) ->
  calculateWarpingBandSize N ratio (Z.max (zlen a) (zlen b)) = Ok r ->
  Post (keoghLowerBound N ratio a b d) (fun v => exists s, pos s /\
    v = euc_norm_dtw N s (Z.max (zlen a) (zlen b)) /\
    forall C, dtw_cost N a b r C -> le s C).
Proof.
  intros Hk Hband. unfold keoghLowerBound. rewrite Hband. cbn [bind].
  eapply Post_seq; [apply env_exists|]. intros [l u] He.
  apply (keogh_sum_spec (l, u) d Hk He).
Qed.
End LB.

(** ** Cross bound and cascade. *)
Section Cascade.
Context (ratio : T) (a b : list T) (r : Z).
Hypothesis Ha : Forall dat a.
Hypothesis Hb : Forall dat b.
Hypothesis Hm : 2 <= zlen a.
Hypothesis Hn : 2 <= zlen b.
Hypothesis Hk : klen (Z.max (zlen a) (zlen b)).
Hypothesis Hband : calculateWarpingBandSize N ratio (Z.max (zlen a) (zlen b)) = Ok r.
Hypothesis Hr : 0 <= r.
Hypothesis Hov : no_overflow N a b r.
Local Notation W C := (euc_norm_dtw N C (Z.max (zlen a) (zlen b))).

Lemma keogh_le d C : dtw_cost N a b r C ->
  Post (keoghLowerBound N ratio a b d) (fun v => pos v /\ le v (W C)).
Proof.
  intros HC. assert (PC : pos C) by (apply (dtw_cost_pos N dat pos L a b r); auto).
  eapply Post_conseq; [apply (keogh_spec a b r Ha Hb Hr ltac:(lia) ltac:(lia) ratio d Hk Hband)|].
  intros v (s & Ps & -> & H). split; [apply (c_ndtw_pos _ _ _ L); auto|].
  apply (c_ndtw_mono _ _ _ L); auto.
Qed.
Lemma keogh_le' d C : dtw_cost N a b r C ->
  Post (keoghLowerBound N ratio b a d) (fun v => pos v /\ le v (W C)).
Proof.
  intros HC. assert (PC : pos C) by (apply (dtw_cost_pos N dat pos L a b r); auto).
  pose proof (dtw_cost_swap a b r C Ha Hb HC) as HC'.
  assert (Hk' : klen (Z.max (zlen b) (zlen a))) by (rewrite Z.max_comm; auto).
  eapply Post_conseq; [apply (keogh_spec b a r Hb Ha Hr ltac:(lia) ltac:(lia) ratio d Hk')|].
  { rewrite Z.max_comm; auto. }
  intros v (s & Ps & -> & H). rewrite (Z.max_comm (zlen b)).
  split; [apply (c_ndtw_pos _ _ _ L); auto|]. apply (c_ndtw_mono _ _ _ L); auto.
Qed.

(** The cross bound: a lower bound, or INF because the distance exceeds the dropout. *)
Lemma cross_spec d C : pos d -> dtw_cost N a b r C ->
  Post (crossKeoghLowerBound N ratio a b d) (fun v => pos v /\ (le v (W C) \/ (v = ninf N /\ lt d (W C)))).
Proof.
  intros Pd HC. assert (PC : pos C) by (apply (dtw_cost_pos N dat pos L a b r); auto).
  assert (PW : pos (W C)) by (apply (c_ndtw_pos _ _ _ L); auto).
  unfold crossKeoghLowerBound. eapply Post_seq; [apply (keogh_le d C HC)|].
  intros v1 (P1 & L1). cbn beta. destruct (nltb N d v1) eqn:E.
  - cbn. split; [apply (c_pos_inf _ _ _ L)|]. right. split; auto.
    apply (lt_le_trans N pos PO) with v1; auto.
  - eapply Post_seq; [apply (keogh_le' d C HC)|]. intros v2 (P2 & L2). cbn.
    split; [apply smax_ok; auto|]. left. destruct (smax_cases N v1 v2) as [-> | ->]; auto.
Qed.

Lemma cascade_spec d C : pos d -> dtw_cost N a b r C ->
  exists w, cascadeDistance N ratio a b d = Ok w /\
    ((w = ninf N /\ lt d (W C)) \/ w = W C \/
     (w = ninf N /\ lt (euc_inorm_dtw N d (Z.max (zlen a) (zlen b))) C)).
Proof.
  intros Pd HC. assert (PC : pos C) by (apply (dtw_cost_pos N dat pos L a b r); auto).
  assert (PW : pos (W C)) by (apply (c_ndtw_pos _ _ _ L); auto).
  unfold cascadeDistance.
  destruct (Post_inv _ _ (cross_spec d C Pd HC)) as (v & Ev & Pv & Hv). rewrite Ev. cbn [bind].
  destruct (nltb N d v) eqn:E.
  - exists (ninf N). split; auto. left. split; auto. destruct Hv as [Hv|(_ & Hv)]; auto.
    apply (lt_le_trans N pos PO) with v; auto.
  - destruct (wd_spec ratio a b r Ha Hb Hm Hn Hk Hband Hr Hov d Pd) as (C' & w & HC' & Ew & Hw).
    assert (C' = C) by (apply (dtw_cost_unique N dat pos L a b r Ha Hb Hr); auto). subst C'.
    exists w. split; auto.
Qed.
End Cascade.
End Keogh.
