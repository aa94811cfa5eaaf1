(** * Distances never go wrong on finite data: always a value, never negative or NaN, and 0 on
    equal series.  No assumption about overflow. *)
From Coq Require Import ZArith Bool Lia List.
From Verif Require Import Outcome Num Deque Lemire Distance Laws Spec DequeProofs LemireProofs DtwProofs KeoghProofs.
Import ListNotations.
Open Scope Z_scope.

Section Safe.
Context (N : NumOps) (dat pos : num N -> Prop) (L : CostLaws N dat pos).
Local Notation T := (num N).
Local Notation lt := (lt N).
Local Notation le := (le N).
Let PO := c_pos_ord _ _ _ L.
Let P0 := c_pos_0 _ _ _ L.
Let PI := c_pos_inf _ _ _ L.

Section WD.
Context (a b : list T) (r : Z).
Hypothesis Ha : Forall dat a.
Hypothesis Hb : Forall dat b.
Hypothesis Hr : 0 <= r.
Hypothesis Hm : 1 <= zlen a.
Hypothesis Hn : 1 <= zlen b.
Local Notation m := (zlen a).
Local Notation n := (zlen b).
Local Notation c i j := (sqd N (at_ N a i) (at_ N b j)).
Local Notation mget := (mget N).

Definition allpos (cst : list (list T)) : Prop :=
  shape N m n cst /\ forall i j v, mget cst i j = Ok v -> pos v.

(** On equal series the diagonal stays 0. *)
Definition diag0 (same : bool) (i : Z) (cst : list (list T)) : Prop :=
  same = true -> forall k, 0 <= k < i -> k < m -> mget cst k k = Ok (nzero N).

Lemma mget_pos cst i j : allpos cst -> 0 <= i < m -> 0 <= j < n -> exists v, mget cst i j = Ok v /\ pos v.
Proof. intros (Hs & Hp) Hi Hj. destruct (mget_Ok N m n cst i j Hs Hi Hj) as (v & E). eauto. Qed.

Lemma mset_pos cst i j v : allpos cst -> pos v -> 0 <= i < m -> 0 <= j < n ->
  exists cst', mset N cst i j v = Ok cst' /\ allpos cst' /\ mget cst' i j = Ok v /\
    (forall i' j', i' <> i \/ j' <> j -> mget cst' i' j' = mget cst i' j').
Proof.
  intros (Hs & Hp) Pv Hi Hj. destruct (mset_Ok N m n cst i j v Hs Hi Hj) as (c' & E & S' & G & F).
  exists c'. split; auto. split; auto. split; auto.
  intros i' j' w Ew. destruct (Z.eq_dec i' i) as [->|]; [destruct (Z.eq_dec j' j) as [->|]|].
  - congruence.
  - rewrite F in Ew by auto. eauto.
  - rewrite F in Ew by auto. eauto.
Qed.

Lemma cell_safe same i j cst best : 1 <= i < m -> 0 <= j < n -> (same = true -> b = a) ->
  Z.abs (i - j) <= r ->
  allpos cst -> pos best -> diag0 same i cst ->
  Post (dtw_cell N a b r i j (cst, best)) (fun s =>
    allpos (fst s) /\ pos (snd s) /\ diag0 same i (fst s) /\
    le (snd s) best /\
    (same = true -> i = j -> mget (fst s) i i = Ok (nzero N) /\ snd s = nzero N) /\
    (i <> j -> mget (fst s) i i = mget cst i i)).
Proof.
  intros Hi Hj Hsame Hband Hp Pb Hd. unfold dtw_cell. destruct (j =? 0) eqn:Ej0.
  - destruct (mget_pos cst i j Hp) as (v & E & Pv); [lia..|]. rewrite E. cbn.
    split; auto. split; [apply smin_ok; auto|]. split; auto.
    split; [apply (smin_le_l N pos PO); auto|]. split; auto. intros; lia.
  - assert (HL : exists vl, (if (i - r <=? j - 1) && (j - 1 <=? i + r) then mget cst i (j - 1)
                          else Ok (ninf N)) = Ok vl /\ pos vl /\
                  (vl <> ninf N -> mget cst i (j - 1) = Ok vl)).
    { destruct ((i - r <=? j - 1) && (j - 1 <=? i + r)).
      - destruct (mget_pos cst i (j - 1) Hp) as (v & E & Pv); [lia..|]. exists v; auto.
      - exists (ninf N). split; auto. split; auto. congruence. }
    destruct HL as (vl & El & Pl & Hl).
    assert (HU : exists vu, (if (j - r <=? i - 1) && (i - 1 <=? j + r) then mget cst (i - 1) j
                          else Ok (ninf N)) = Ok vu /\ pos vu /\
                  (vu <> ninf N -> mget cst (i - 1) j = Ok vu)).
    { destruct ((j - r <=? i - 1) && (i - 1 <=? j + r)).
      - destruct (mget_pos cst (i - 1) j Hp) as (v & E & Pv); [lia..|]. exists v; auto.
      - exists (ninf N). split; auto. split; auto. congruence. }
    destruct HU as (vu & Eu & Pu & Hu).
    destruct (mget_pos cst (i - 1) (j - 1) Hp) as (vd & Ed & Pd); [lia..|].
    destruct (mget_pos cst (i - 1) j Hp) as (raw & Eraw & Praw); [lia..|].
    destruct (mget_pos cst i (j - 1) Hp) as (rawl & Erawl & Prawl); [lia..|].
    rewrite El. cbn [bind]. rewrite Ed. cbn [bind]. rewrite Eu. cbn [bind]. rewrite Eraw. cbn [bind].
    rewrite Erawl.
    set (mp := if nltb N vd vl && nltb N vd vu then vd else if nltb N vl vu then rawl else raw).
    assert (Emp : (if nltb N vd vl && nltb N vd vu then Ok vd
                   else if nltb N vl vu then Ok rawl else Ok raw) = Ok mp).
    { unfold mp. destruct (nltb N vd vl && nltb N vd vu); auto. destruct (nltb N vl vu); auto. }
    rewrite Emp. cbn [bind]. rewrite !ts_at_Ok by lia. cbn [bind].
    assert (Pmp : pos mp).
    { unfold mp. destruct (nltb N vd vl && nltb N vd vu); auto. destruct (nltb N vl vu); auto. }
    assert (Pc : pos (c i j)) by (apply (c_pos N dat pos L); auto; lia).
    assert (Pn : pos (nadd N mp (c i j))) by (apply (c_add_pos _ _ _ L); auto).
    destruct (mset_pos cst i j _ Hp Pn) as (c2 & E2 & Hp2 & G2 & F2); [lia..|].
    rewrite E2. cbn [bind Post wp fst snd]. split; auto. split; [apply smin_ok; auto|].
    split; [intros Es k Hk Hkm; rewrite F2 by lia; apply Hd; auto|].
    split; [apply (smin_le_l N pos PO); auto|]. split.
    + intros Es ->. (* diagonal *)
      assert (Evd : vd = nzero N).
      { assert (mget cst (j - 1) (j - 1) = Ok (nzero N)) by (apply Hd; auto; lia). congruence. }
      assert (Emp0 : mp = nzero N).
      { unfold mp. assert (N0 : nzero N <> ninf N).
        { intros E. pose proof (c_0_lt_inf _ _ _ L) as H. rewrite E in H.
          apply (lt_not_le N _ _ H). apply (le_refl N pos PO); auto. }
        destruct (nltb N vd vl) eqn:E1; cbn [andb].
        - destruct (nltb N vd vu) eqn:E3; auto.
          assert (vu = nzero N) by (apply (le_0_eq N dat pos L); auto; rewrite <- Evd; auto).
          destruct (nltb N vl vu) eqn:E4.
          + exfalso. subst vu. apply (lt_not_le N _ _ E4). apply (c_0_le _ _ _ L); auto.
          + rewrite Hu in Eraw by congruence. congruence.
        - assert (vl = nzero N) by (apply (le_0_eq N dat pos L); auto; rewrite <- Evd; auto).
          destruct (nltb N vl vu) eqn:E4.
          + rewrite Hl in Erawl by congruence. congruence.
          + assert (vu = nzero N) by (apply (le_0_eq N dat pos L); auto; rewrite <- H; auto).
            rewrite Hu in Eraw by congruence. congruence. }
      assert (Ec : c j j = nzero N).
      { rewrite (Hsame Es). apply (c_sqd_diag _ _ _ L). apply (at_dat N dat); auto; lia. }
      rewrite G2, Emp0, Ec, (c_add_0 _ _ _ L) by auto. split; auto.
      apply (le_0_eq N dat pos L); [apply smin_ok; auto|]. apply (smin_le_r N pos PO); auto.
    + intros Hne. apply F2. auto.
Qed.

Lemma inner_safe same i cst : 1 <= i < m -> (same = true -> b = a) -> allpos cst -> diag0 same i cst ->
  Post (for_ (Z.max (i - r) 0) (Z.min (i + r) (n - 1) + 1) (dtw_cell N a b r i) (cst, ninf N))
    (fun s => allpos (fst s) /\ pos (snd s) /\ diag0 same (i + 1) (fst s) /\
       (same = true -> snd s = nzero N)).
Proof.
  intros Hi Hsame Hp Hd. eapply Post_conseq.
  - apply (for_rule (fun j s => allpos (fst s) /\ pos (snd s) /\ diag0 same i (fst s) /\
      (same = true -> i < j -> mget (fst s) i i = Ok (nzero N) /\ snd s = nzero N))).
    + cbn. split; auto. split; auto. split; auto. intros; lia.
    + intros j [cst' best] Hj (Hp' & Pb & Hd' & Hz). cbn [fst snd] in *.
      eapply Post_conseq; [apply (cell_safe same i j cst' best); auto; lia|].
      intros [c2 b2] (A1 & A2 & A3 & A4 & A5 & A6). cbn [fst snd] in *.
      split; auto. split; auto. split; auto. intros Es Hij.
      destruct (Z.eq_dec i j) as [E|Hne]; [apply A5; auto|].
      destruct (Hz Es ltac:(lia)) as (B1 & ->). rewrite A6 by auto. split; auto.
      apply (le_0_eq N dat pos L); auto.
  - intros [c2 b2] (A1 & A2 & A3 & A4). cbn [fst snd] in *. split; auto. split; auto.
    assert (X : same = true -> mget c2 i i = Ok (nzero N) /\ b2 = nzero N).
    { intros Es. apply A4; auto. rewrite (Hsame Es) in *. lia. }
    split; [|intros Es; apply X; auto].
    intros Es k Hk Hkm. destruct (Z.eq_dec k i) as [->|]; [apply X; auto|]. apply A3; auto. lia.
Qed.

Lemma outer_safe same idrop cst : (same = true -> b = a /\ pos idrop) -> allpos cst -> diag0 same 1 cst ->
  Post (forb 1 m (dtw_row N a b r idrop) (cst, false)) (fun s =>
    allpos (fst s) /\ (same = true -> snd s = false /\ diag0 same m (fst s))).
Proof.
  intros Hsame Hp Hd. eapply Post_conseq.
  - apply (forb_rule (fun i s => allpos (fst s) /\ diag0 same i (fst s) /\ (same = true -> snd s = false))
       (fun s => allpos (fst s) /\ same = false)).
    + cbn. auto.
    + intros i [cst' dr] Hi (Hp' & Hd' & Hz). cbn [fst snd] in *. unfold dtw_row.
      eapply Post_seq; [apply (inner_safe same); auto; intros; now apply Hsame|].
      intros [c2 best] (A1 & A2 & A3 & A4). cbn [fst snd] in *.
      destruct (nltb N idrop best) eqn:E; cbn; auto.
      split; auto. destruct same; auto. exfalso. rewrite A4 in E by auto.
      apply (lt_not_le N _ _ E). apply (c_0_le _ _ _ L). now apply Hsame.
  - intros [c2 dr] [(A1 & A2 & A3)|(A1 & A2)]; cbn [fst snd] in *; split; auto.
    + intros Es. split; auto. replace (Z.max 1 m) with m in A2 by lia. auto.
    + intros Es. congruence.
Qed.

Lemma allpos_init : allpos (zrepeat (zrepeat (nzero N) n) m).
Proof.
  split; [apply shape_init; lia|]. intros i j v E. unfold Distance.mget in E.
  apply bind_Ok_inv in E as (row & E1 & E2).
  assert (0 <= i < m) by (apply zget_inv in E1; rewrite zlen_zrepeat in E1; lia).
  rewrite zget_zrepeat in E1 by auto. inversion E1; subst row.
  assert (0 <= j < n) by (apply zget_inv in E2; rewrite zlen_zrepeat in E2; lia).
  rewrite zget_zrepeat in E2 by auto. inversion E2; subst; auto.
Qed.

Lemma wd_safe_gen same ratio d : (same = true -> b = a /\ pos d) -> klen (Z.max m n) ->
  calculateWarpingBandSize N ratio (Z.max m n) = Ok r ->
  Post (warpedDistance N ratio a b d) (fun w => pos w /\ (same = true -> w = nzero N)).
Proof.
  intros Hsame Hk Hband. unfold warpedDistance. rewrite Hband. cbn [bind].
  destruct ((m =? 1) && (n =? 1)) eqn:E11.
  { rewrite !ts_at_Ok by lia. cbn. assert (Pc : pos (c 0 0)) by (apply (c_pos N dat pos L); auto; lia).
    split; [apply (c_ndtw_pos _ _ _ L); auto|]. intros Es. destruct (Hsame Es) as (E & _). rewrite E in *.
    rewrite (c_sqd_diag _ _ _ L) by (apply (at_dat N dat); auto; lia). apply (c_ndtw_0 _ _ _ L); auto. }
  destruct (mset_pos _ (m - 1) (n - 1) (ninf N) allpos_init PI) as (c1 & E1 & A1 & G1 & F1); [lia..|].
  rewrite E1. cbn [bind]. rewrite !ts_at_Ok by lia. cbn [bind].
  assert (P00 : pos (c 0 0)) by (apply (c_pos N dat pos L); auto; lia).
  destruct (mset_pos c1 0 0 (c 0 0) A1 P00) as (c2 & E2 & A2 & G2 & F2); [lia..|].
  rewrite E2. cbn [bind].
  assert (D2 : diag0 same 1 c2).
  { intros Es k Hk1 Hk2. assert (k = 0) by lia; subst k. rewrite G2. f_equal.
    destruct (Hsame Es) as (-> & _). apply (c_sqd_diag _ _ _ L). apply (at_dat N dat); auto; lia. }
  eapply (Post_seq (fun c3 => allpos c3 /\ diag0 same 1 c3)).
  { eapply Post_conseq; [apply (for_rule (fun _ cst => allpos cst /\ diag0 same 1 cst))|]; auto.
    intros i cst Hi (A & D). unfold dtw_col.
    destruct (mget_pos cst (i - 1) 0 A) as (p & Ep & Pp); [lia..|]. rewrite Ep. cbn [bind].
    rewrite !ts_at_Ok by lia. cbn [bind].
    destruct (mset_pos cst i 0 (nadd N p (c i 0)) A) as (c3 & E3 & A3 & G3 & F3); [|lia..|].
    { apply (c_add_pos _ _ _ L); auto. apply (c_pos N dat pos L); auto; lia. }
    rewrite E3. cbn. split; auto. intros Es k Hk1 Hk2. rewrite F3 by lia. apply D; auto. }
  intros c3 (A3 & D3).
  eapply (Post_seq (fun c3 => allpos c3 /\ diag0 same 1 c3)).
  { eapply Post_conseq; [apply (for_rule (fun _ cst => allpos cst /\ diag0 same 1 cst))|]; auto.
    intros i cst Hi (A & D). unfold dtw_row0.
    destruct (mget_pos cst 0 (i - 1) A) as (p & Ep & Pp); [lia..|]. rewrite Ep. cbn [bind].
    rewrite !ts_at_Ok by lia. cbn [bind].
    destruct (mset_pos cst 0 i (nadd N p (c 0 i)) A) as (c4 & E4 & A4 & G4 & F4); [|lia..|].
    { apply (c_add_pos _ _ _ L); auto. apply (c_pos N dat pos L); auto; lia. }
    rewrite E4. cbn. split; auto. intros Es k Hk1 Hk2. rewrite F4 by lia. apply D; auto. }
  intros c4 (A4 & D4).
  eapply Post_seq; [apply (outer_safe same (euc_inorm_dtw N d (Z.max m n))); auto|].
  { intros Es. destruct (Hsame Es). split; auto. apply (c_idtw_pos _ _ _ L); auto. }
  intros [c5 dr] (A5 & H5). cbn [fst snd] in *.
  destruct (mget_pos c5 (m - 1) (n - 1) A5) as (v & Ev & Pv); [lia..|].
  destruct dr; cbn [bind].
  - cbn. split; [apply (c_ndtw_pos _ _ _ L); auto|]. intros Es. destruct (H5 Es). discriminate.
  - rewrite Ev. cbn. split; [apply (c_ndtw_pos _ _ _ L); auto|]. intros Es.
    destruct (H5 Es) as (_ & D5). destruct (Hsame Es) as (E & _).
    assert (Hz : mget c5 (m - 1) (m - 1) = Ok (nzero N)) by (apply D5; auto; lia).
    rewrite E in Ev. rewrite Hz in Ev. inversion Ev; subst. apply (c_ndtw_0 _ _ _ L); auto.
Qed.
End WD.

(** The warped distance always returns a non-negative, non-NaN value (possibly INF). *)
Lemma wd_safe ratio a b r d : Forall dat a -> Forall dat b -> 1 <= zlen a -> 1 <= zlen b ->
  klen (Z.max (zlen a) (zlen b)) -> 0 <= r ->
  calculateWarpingBandSize N ratio (Z.max (zlen a) (zlen b)) = Ok r ->
  Post (warpedDistance N ratio a b d) pos.
Proof.
  intros. eapply Post_conseq; [apply (wd_safe_gen a b r H H0 H4 H1 H2 false ratio d); auto; discriminate|].
  intros w (P & _). auto.
Qed.
Lemma wd_self ratio a r d : Forall dat a -> 1 <= zlen a -> klen (zlen a) -> 0 <= r ->
  calculateWarpingBandSize N ratio (zlen a) = Ok r -> pos d ->
  warpedDistance N ratio a a d = Ok (nzero N).
Proof.
  intros Ha Hl Hk Hr Hband Pd.
  rewrite <- (Z.max_id (zlen a)) in Hk, Hband.
  destruct (Post_inv _ _ (wd_safe_gen a a r Ha Ha Hr Hl Hl true ratio d ltac:(auto) Hk Hband)) as (w & E & _ & H).
  rewrite E, H; auto.
Qed.

(** Keogh bound of any envelope with values. *)
Lemma keogh_safe ratio a b r d : Forall dat a -> Forall dat b -> 1 <= zlen a -> 1 <= zlen b ->
  klen (Z.max (zlen a) (zlen b)) -> 0 <= r ->
  calculateWarpingBandSize N ratio (Z.max (zlen a) (zlen b)) = Ok r ->
  Post (keoghLowerBound N ratio a b d) pos.
Proof.
  intros Ha Hb Hm Hn Hk Hr Hband.
  eapply Post_conseq; [apply (keogh_spec N dat pos L a b r Ha Hb Hr Hm Hn ratio d Hk Hband)|].
  intros v (s & Ps & -> & _). apply (c_ndtw_pos _ _ _ L); auto.
Qed.
Lemma cascade_safe ratio a b r d : Forall dat a -> Forall dat b -> 1 <= zlen a -> 1 <= zlen b ->
  klen (Z.max (zlen a) (zlen b)) -> 0 <= r ->
  calculateWarpingBandSize N ratio (Z.max (zlen a) (zlen b)) = Ok r ->
  Post (cascadeDistance N ratio a b d) pos.
Proof.
  intros Ha Hb Hm Hn Hk Hr Hband. unfold cascadeDistance.
  eapply (Post_seq pos).
  - unfold crossKeoghLowerBound. eapply Post_seq; [apply (keogh_safe ratio a b r d); auto|].
    intros v1 P1. cbn beta. destruct (nltb N d v1); [exact PI|].
    eapply Post_seq; [apply (keogh_safe ratio b a r d); auto; now rewrite Z.max_comm|].
    intros v2 P2. cbn. apply smax_ok; auto.
  - intros v Pv. cbn beta. destruct (nltb N d v); [exact PI|].
    apply (wd_safe ratio a b r d); auto.
Qed.

(** A series lies inside its own envelope: the Keogh bound with itself is 0. *)
Lemma keogh_self ratio a r d : Forall dat a -> 1 <= zlen a -> klen (zlen a) -> 0 <= r ->
  calculateWarpingBandSize N ratio (zlen a) = Ok r ->
  keoghLowerBound N ratio a a d = Ok (nzero N).
Proof.
  intros Ha Hl Hk Hr Hband.
  cut (Post (keoghLowerBound N ratio a a d) (fun v => v = nzero N)).
  { intros H. destruct (Post_inv _ _ H) as (v & -> & ->). auto. }
  unfold keoghLowerBound. rewrite Z.max_id, Hband. cbn [bind].
  eapply Post_seq; [apply (env_exists N dat pos L a r); auto|]. intros [lo up] He.
  unfold keogh_sum. rewrite Z.max_id, Z.min_id.
  apply (Post_seq (fun s => s = nzero N)).
  - eapply Post_conseq.
    + apply (forb_rule (fun _ s => s = nzero N) (fun s => s = nzero N)); auto.
      intros j s Hj ->. unfold keogh_step. destruct (negb _); [reflexivity|].
      rewrite ts_at_Ok by lia. cbn [bind].
      destruct (He j ltac:(lia)) as ((l & El & _ & Ml) & (u & Eu & _ & Mu)).
      unfold uget. cbn [fst snd] in *. rewrite Eu. cbn [bind].
      rewrite (Mu j) by lia. rewrite El. cbn [bind]. rewrite (Ml j) by lia. reflexivity.
    + intros s [H|H]; auto.
  - intros s ->. cbn. apply (c_ndtw_0 _ _ _ L); auto.
Qed.

Lemma cascade_self ratio a r d : Forall dat a -> 1 <= zlen a -> klen (zlen a) -> 0 <= r ->
  calculateWarpingBandSize N ratio (zlen a) = Ok r -> pos d ->
  cascadeDistance N ratio a a d = Ok (nzero N).
Proof.
  intros Ha Hl Hk Hr Hband Pd. unfold cascadeDistance, crossKeoghLowerBound.
  rewrite (keogh_self ratio a r d) by auto. cbn [bind].
  assert (E : nltb N d (nzero N) = false) by (apply (c_0_le _ _ _ L); auto).
  rewrite E. cbn [bind].
  assert (Es : smax N (nzero N) (nzero N) = nzero N) by (destruct (smax_cases N (nzero N) (nzero N)); auto).
  rewrite Es, E. apply (wd_self ratio a r d); auto.
Qed.

(** ** Pairwise distance. *)
Local Notation sum_sq := (sum_sq N).

Lemma fold_pos l s : pos s -> (forall c, In c l -> dat (fst c) /\ dat (snd c)) ->
  pos (fold_left (fun acc c => nadd N acc (sqd N (fst c) (snd c))) l s) /\
  le s (fold_left (fun acc c => nadd N acc (sqd N (fst c) (snd c))) l s).
Proof.
  revert s. induction l as [|c l IH]; intros s Ps H; cbn.
  - split; auto. apply (le_refl N pos PO); auto.
  - assert (Pc : pos (sqd N (fst c) (snd c))) by (apply (c_sqd_pos _ _ _ L); apply H; now left).
    assert (Pn : pos (nadd N s (sqd N (fst c) (snd c)))) by (apply (c_add_pos _ _ _ L); auto).
    destruct (IH _ Pn) as (A & B); [intros; apply H; now right|].
    split; auto. apply (ord_trans _ _ PO) with (nadd N s (sqd N (fst c) (snd c))); auto.
    apply (add_le_l N dat pos L); auto.
Qed.
Lemma combine_dat a b c : Forall dat a -> Forall dat b -> In c (combine a b) -> dat (fst c) /\ dat (snd c).
Proof.
  intros Ha Hb Hc. rewrite Forall_forall in *. destruct c as [x y]. split.
  - apply Ha. eapply in_combine_l; eauto.
  - apply Hb. eapply in_combine_r; eauto.
Qed.
Lemma sum_sq_pos a b : Forall dat a -> Forall dat b -> pos (sum_sq a b).
Proof. intros. apply fold_pos; auto. intros c Hc. apply (combine_dat a b); auto. Qed.

(** Prefix sums. *)
Lemma firstn_combine_snoc (a b : list T) j : 0 <= j < zlen a -> zlen a = zlen b ->
  firstn (Z.to_nat (j + 1)) (combine a b) = firstn (Z.to_nat j) (combine a b) ++ [(at_ N a j, at_ N b j)].
Proof.
  intros Hj Hl. unfold at_. replace (Z.to_nat (j + 1)) with (S (Z.to_nat j)) by lia.
  rewrite <- (combine_nth a b (Z.to_nat j) (nzero N) (nzero N)) by (unfold zlen in *; lia).
  assert (Hlt : (Z.to_nat j < length (combine a b))%nat).
  { rewrite combine_length. unfold zlen in *. lia. }
  revert Hlt. generalize (Z.to_nat j). generalize (combine a b). clear.
  induction l as [|x l IH]; intros k Hk; cbn in Hk; [lia|]. destruct k; cbn; auto.
  f_equal. apply IH. lia.
Qed.

Definition psum (a b : list T) (j : Z) : T :=
  fold_left (fun acc c => nadd N acc (sqd N (fst c) (snd c))) (firstn (Z.to_nat j) (combine a b)) (nzero N).

Lemma psum_le a b j : Forall dat a -> Forall dat b -> le (psum a b j) (sum_sq a b) /\ pos (psum a b j).
Proof.
  intros Ha Hb. unfold psum, sum_sq.
  rewrite <- (firstn_skipn (Z.to_nat j) (combine a b)) at 2. rewrite fold_left_app.
  assert (Pp : pos (fold_left (fun acc c => nadd N acc (sqd N (fst c) (snd c)))
     (firstn (Z.to_nat j) (combine a b)) (nzero N))).
  { apply fold_pos; auto. intros c Hc. apply (combine_dat a b); auto.
    rewrite <- (firstn_skipn (Z.to_nat j)). apply in_or_app; now left. }
  split; auto. apply fold_pos; auto. intros c Hc. apply (combine_dat a b); auto.
  rewrite <- (firstn_skipn (Z.to_nat j)). apply in_or_app; now right.
Qed.

Lemma pairwise_spec a b d : Forall dat a -> Forall dat b -> 1 <= zlen a -> zlen a = zlen b -> klen (zlen a) ->
  pos (euc_inorm N d (zlen a)) ->
  exists w, pairwiseDistance N a b d = Ok w /\
    ((w = euc_norm N (sum_sq a b) (zlen a) /\ le (sum_sq a b) (euc_inorm N d (zlen a))) \/
     (w = ninf N /\ lt (euc_inorm N d (zlen a)) (sum_sq a b))).
Proof.
  intros Ha Hb Hl He Hk Pd. unfold pairwiseDistance. rewrite <- He, Z.eqb_refl. cbn [negb].
  rewrite Z.max_id. set (idrop := euc_inorm N d (zlen a)) in *.
  assert (HP : Post (forb 0 (zlen a) (pairwise_step N a b idrop) (nzero N, false)) (fun s =>
     (snd s = false /\ fst s = sum_sq a b /\ le (sum_sq a b) idrop) \/ (snd s = true /\ lt idrop (sum_sq a b)))).
  { eapply Post_conseq.
    - apply (forb_rule (fun j s => snd s = false /\ fst s = psum a b j /\ (0 < j -> le (psum a b j) idrop))
               (fun s => snd s = true /\ lt idrop (sum_sq a b))).
      + cbn. repeat split; auto. lia.
      + intros j [tot dr] Hj (E1 & E2 & E3). cbn [fst snd] in *. subst. unfold pairwise_step.
        rewrite !ts_at_Ok by lia. cbn [bind].
        assert (E : nadd N (psum a b j) (sqd N (at_ N a j) (at_ N b j)) = psum a b (j + 1)).
        { unfold psum. rewrite firstn_combine_snoc by auto. rewrite fold_left_app. reflexivity. }
        rewrite E. destruct (psum_le a b (j + 1) Ha Hb) as (Hle & Hp).
        destruct (nltb N idrop (psum a b (j + 1))) eqn:Ed; cbn.
        * split; auto. apply (lt_le_trans N pos PO) with (psum a b (j + 1)); auto. now apply sum_sq_pos.
        * auto.
    - intros [tot dr] [(E1 & E2 & E3)|H]; auto. cbn [fst snd] in *. left.
      assert (E : psum a b (Z.max 0 (zlen a)) = sum_sq a b).
      { unfold psum, sum_sq. rewrite firstn_all2; auto. rewrite combine_length. unfold zlen in *. lia. }
      rewrite E in *. split; auto. split; auto. apply E3. lia. }
  destruct (Post_inv _ _ HP) as ([tot dr] & E & H). rewrite E. cbn [bind].
  destruct H as [(E1 & E2 & E3)|(E1 & E2)]; cbn [fst snd] in *; subst.
  - eexists. split; [reflexivity|]. left. auto.
  - eexists. split; [reflexivity|]. right. auto.
Qed.

Lemma sum_sq_self a : Forall dat a -> sum_sq a a = nzero N.
Proof.
  intros Ha. unfold sum_sq.
  assert (G : forall l, (forall c, In c l -> fst c = snd c /\ dat (fst c)) ->
    fold_left (fun acc c => nadd N acc (sqd N (fst c) (snd c))) l (nzero N) = nzero N).
  { induction l as [|c l IH]; intros H; cbn; auto. destruct (H c ltac:(now left)) as (E & D).
    rewrite <- E, (c_sqd_diag _ _ _ L) by auto. rewrite (c_add_0 _ _ _ L) by auto.
    apply IH. intros; apply H; now right. }
  apply G. intros [x y] Hc. cbn. clear -Ha Hc. induction a as [|z a IH]; cbn in Hc; [contradiction|].
  inversion Ha; subst. destruct Hc as [E|Hc]; auto. inversion E; subst. auto.
Qed.
Lemma sum_sq_sym a b : Forall dat a -> Forall dat b -> sum_sq a b = sum_sq b a.
Proof.
  intros Ha Hb. unfold sum_sq. generalize (nzero N). revert b Hb.
  induction a as [|x a IH]; intros [|y b] Hb s; cbn; auto.
  inversion Ha; inversion Hb; subst. rewrite (c_sqd_sym _ _ _ L x y) by auto. apply IH; auto.
Qed.
End Safe.
