(** * Proofs about warpedDistance (Distance.v) for any arithmetic satisfying [CostLaws]. *)
From Coq Require Import ZArith Bool Lia List.
From Verif Require Import Outcome Num Lemire Distance Laws Spec.
Import ListNotations.
Open Scope Z_scope.

(** ** Matrices. *)
Section Matrix.
Context (N : NumOps).
Local Notation T := (num N).
Local Notation mget := (mget N).
Local Notation mset := (mset N).

Definition shape (m n : Z) (c : list (list T)) : Prop :=
  zlen c = m /\ forall i row, zget c i = Ok row -> zlen row = n.

Lemma mget_Ok m n c i j : shape m n c -> 0 <= i < m -> 0 <= j < n -> exists v, mget c i j = Ok v.
Proof.
  intros (Hm & Hr) Hi Hj. unfold Distance.mget. destruct (zget_Ok c i) as (row & E); [lia|].
  rewrite E. cbn. apply zget_Ok. rewrite (Hr _ _ E). lia.
Qed.
Lemma mset_Ok m n c i j v : shape m n c -> 0 <= i < m -> 0 <= j < n ->
  exists c', mset c i j v = Ok c' /\ shape m n c' /\ mget c' i j = Ok v /\
             (forall i' j', i' <> i \/ j' <> j -> mget c' i' j' = mget c i' j').
Proof.
  intros (Hm & Hr) Hi Hj. unfold Distance.mset. destruct (zget_Ok c i) as (row & E); [lia|].
  rewrite E. cbn. rewrite zset_Ok by (rewrite (Hr _ _ E); lia). cbn.
  rewrite zset_Ok by lia. eexists. split; [reflexivity|].
  set (row' := list_set row (Z.to_nat j) v).
  assert (Hs : zset row j v = Ok row') by (apply zset_Ok; rewrite (Hr _ _ E); lia).
  assert (Hc : zset c i row' = Ok (list_set c (Z.to_nat i) row')) by (apply zset_Ok; lia).
  split; [split|split].
  - now rewrite (zset_len _ _ _ _ Hc).
  - intros k rw Hk. destruct (Z.eq_dec i k) as [<-|Hne].
    + rewrite (zget_zset_eq _ _ _ _ Hc) in Hk. inversion Hk; subst.
      rewrite (zset_len _ _ _ _ Hs). eauto.
    + rewrite (zget_zset_neq _ _ _ _ _ Hc Hne) in Hk. eauto.
  - unfold Distance.mget. rewrite (zget_zset_eq _ _ _ _ Hc). cbn. apply (zget_zset_eq _ _ _ _ Hs).
  - intros i' j' Hne. unfold Distance.mget. destruct (Z.eq_dec i i') as [<-|Hi'].
    + rewrite (zget_zset_eq _ _ _ _ Hc), E. cbn. apply (zget_zset_neq _ _ _ _ _ Hs). lia.
    + now rewrite (zget_zset_neq _ _ _ _ _ Hc Hi').
Qed.
Lemma shape_init m n v : 0 <= m -> 0 <= n -> shape m n (zrepeat (zrepeat v n) m).
Proof.
  intros Hm Hn. split; [now apply zlen_zrepeat|]. intros i row H.
  assert (0 <= i < m) by (apply zget_inv in H; rewrite zlen_zrepeat in H; lia).
  rewrite zget_zrepeat in H by auto. inversion H; subst. now apply zlen_zrepeat.
Qed.
End Matrix.

(** ** Least-cost paths. *)
Section Dtw.
Context (N : NumOps) (dat pos : num N -> Prop) (L : CostLaws N dat pos).
Local Notation T := (num N).
Local Notation lt := (lt N).
Local Notation le := (le N).
Let PO := c_pos_ord _ _ _ L.

Section Paths.
Context (a b : list T) (r : Z).
Hypothesis Ha : Forall dat a.
Hypothesis Hb : Forall dat b.
Hypothesis Hr : 0 <= r.
Local Notation m := (zlen a).
Local Notation n := (zlen b).
Local Notation c i j := (sqd N (at_ N a i) (at_ N b j)).
Local Notation path := (warp_path r).
Local Notation cost := (path_cost N a b).
Local Notation opt := (least_cost N a b r).

Lemma at_dat (l : list T) i : Forall dat l -> 0 <= i < zlen l -> dat (at_ N l i).
Proof.
  intros H Hi. unfold at_. rewrite Forall_forall in H. apply H, nth_In. unfold zlen in Hi. lia.
Qed.
Lemma ts_at_Ok (l : list T) i : 0 <= i < zlen l -> ts_at N l i = Ok (at_ N l i).
Proof.
  intros H. unfold ts_at. destruct (i <? 0) eqn:E1; [lia|]. destruct (zlen l <=? i) eqn:E2; [lia|].
  cbn. now apply zget_nth.
Qed.
Lemma c_pos i j : 0 <= i < m -> 0 <= j < n -> pos (c i j).
Proof. intros. apply (c_sqd_pos _ _ _ L); apply at_dat; auto. Qed.

Lemma path_range i j p : path i j p -> 0 <= i /\ 0 <= j /\ Z.abs (i - j) <= r.
Proof. induction 1; [lia|]. destruct H0 as [H0|[H0|H0]]; lia. Qed.

Lemma path_inv i j p : path i j p ->
  (i = 0 /\ j = 0 /\ p = [(0, 0)]) \/
  (exists i0 j0 p0, path i0 j0 p0 /\ warp_step i0 j0 i j /\ Z.abs (i - j) <= r /\ p = p0 ++ [(i, j)]).
Proof. intros H. destruct H; [left|right]; auto. exists i, j, p. auto. Qed.

Lemma cost_snoc p i j : cost (p ++ [(i, j)]) = nadd N (cost p) (c i j).
Proof. unfold path_cost. rewrite fold_left_app. reflexivity. Qed.

Lemma cost_pos i j p : path i j p -> i < m -> j < n -> pos (cost p).
Proof.
  induction 1; intros Hi Hj.
  - unfold path_cost. cbn. apply (c_add_pos _ _ _ L).
    + apply (c_pos_0 _ _ _ L).
    + apply c_pos; lia.
  - rewrite cost_snoc. pose proof (path_range _ _ _ H).
    assert (0 <= i' /\ 0 <= j') by (destruct H0 as [?|[?|?]]; lia).
    apply (c_add_pos _ _ _ L).
    + apply IHwarp_path; destruct H0 as [?|[?|?]]; lia.
    + apply c_pos; lia.
Qed.

Lemma opt_pos i j v : opt i j v -> i < m -> j < n -> pos v.
Proof. intros ((p & Hp & <-) & _) Hi Hj. eapply cost_pos; eauto. Qed.

Lemma opt_unique i j v w : opt i j v -> opt i j w -> i < m -> j < n -> v = w.
Proof.
  intros Hv Hw Hi Hj. pose proof (opt_pos _ _ _ Hv Hi Hj). pose proof (opt_pos _ _ _ Hw Hi Hj).
  destruct Hv as ((p & Hp & Ep) & Mv), Hw as ((q & Hq & Eq) & Mw).
  apply (c_antisym _ _ _ L); auto.
  - rewrite <- Eq. apply Mv. auto.
  - rewrite <- Ep. apply Mw. auto.
Qed.

Lemma opt_00 : 0 < m -> 0 < n -> opt 0 0 (c 0 0).
Proof.
  intros Hm Hn. assert (P : pos (c 0 0)) by (apply c_pos; lia).
  assert (E : cost [(0, 0)] = c 0 0) by (unfold path_cost; cbn; now apply (c_0_add _ _ _ L)).
  split.
  - exists [(0, 0)]. split; [constructor|exact E].
  - intros p Hp. apply path_inv in Hp as [(_ & _ & ->)|(i0 & j0 & p0 & Hp & S & _)].
    + rewrite E. apply (le_refl N pos PO); auto.
    + apply path_range in Hp. destruct S as [?|[?|?]]; lia.
Qed.

(** The recurrence: [v] is the least of the values of the predecessors in the band. *)
Lemma opt_step i j v :
  0 <= i < m -> 0 <= j < n -> Z.abs (i - j) <= r -> (0 < i \/ 0 < j) -> pos v ->
  (exists i0 j0, warp_step i0 j0 i j /\ opt i0 j0 v) ->
  (forall i0 j0, warp_step i0 j0 i j -> 0 <= i0 -> 0 <= j0 -> Z.abs (i0 - j0) <= r ->
     exists w, opt i0 j0 w /\ le v w) ->
  opt i j (nadd N v (c i j)).
Proof.
  intros Hi Hj Hband Hnz Pv (i0 & j0 & S0 & (q & Hq & Eq) & _) Hmin. split.
  - exists (q ++ [(i, j)]). split.
    + econstructor; eauto.
    + now rewrite cost_snoc, Eq.
  - intros p Hp. apply path_inv in Hp as [(-> & -> & _)|(i1 & j1 & p1 & Hp & S1 & _ & ->)]; [lia|].
    rewrite cost_snoc. pose proof (path_range _ _ _ Hp) as (R1 & R2 & R3).
    destruct (Hmin i1 j1 S1 R1 R2 R3) as (w & Ow & Lvw).
    assert (Hb1 : i1 < m /\ j1 < n) by (destruct S1 as [?|[?|?]]; lia). destruct Hb1.
    assert (Pw : pos w) by (eapply opt_pos; eauto).
    assert (Pc : pos (cost p1)) by (eapply cost_pos; eauto).
    assert (Pij : pos (c i j)) by (apply c_pos; lia).
    apply (c_add_mono _ _ _ L); auto.
    + apply (ord_trans _ _ PO) with w; auto. apply (proj2 Ow). auto.
    + apply (le_refl N pos PO); auto.
Qed.

(** Costs only grow along a path, and a path to row [i] passes through every earlier row. *)
Lemma path_through i j p k : path i j p -> i < m -> j < n -> 0 <= k <= i ->
  exists j0 p0, path k j0 p0 /\ j0 <= j /\ le (cost p0) (cost p).
Proof.
  intros H. induction H; intros Hi Hj Hk.
  - assert (k = 0) by lia; subst. exists 0, [(0, 0)]. split; [constructor|]. split; [lia|].
    apply (le_refl N pos PO). eapply cost_pos; [constructor|lia|lia].
  - assert (Hfull : path i' j' (p ++ [(i', j')])) by (econstructor; eauto).
    assert (Pfull : pos (cost (p ++ [(i', j')]))) by (eapply cost_pos; eauto).
    destruct (Z.eq_dec k i') as [->|Hne].
    + exists j', (p ++ [(i', j')]). split; auto. split; [lia|]. apply (le_refl N pos PO); auto.
    + pose proof (path_range _ _ _ H).
      assert (0 <= i' /\ 0 <= j') by (destruct H0 as [?|[?|?]]; lia).
      destruct IHwarp_path as (j0 & p0 & Hp0 & Hj0 & Hle);
        [destruct H0 as [?|[?|?]]; lia ..|].
      exists j0, p0. split; auto. split; [destruct H0 as [?|[?|?]]; lia|].
      assert (pos (cost p)) by (eapply cost_pos; eauto; destruct H0 as [?|[?|?]]; lia).
      assert (pos (cost p0)) by (eapply cost_pos; eauto; destruct H0 as [?|[?|?]]; lia).
      apply (ord_trans _ _ PO) with (cost p); auto.
      rewrite cost_snoc. apply (add_le_l N dat pos L); auto. apply c_pos; lia.
Qed.

(** Every cell of the band is reachable. *)
Lemma path_exists i j : 0 <= i -> 0 <= j -> Z.abs (i - j) <= r -> exists p, path i j p.
Proof.
  intros Hi Hj Hb'.
  assert (D : forall k, 0 <= k -> exists p, path k k p).
  { intros k Hk. pattern k. apply natlike_ind; auto.
    - exists [(0, 0)]; constructor.
    - intros x Hx (p & Hp). exists (p ++ [(Z.succ x, Z.succ x)]).
      econstructor; eauto; [right; right|]; lia. }
  destruct (Z.le_ge_cases i j).
  - destruct (D i Hi) as (p0 & Hp0).
    assert (E : forall d, 0 <= d -> i + d - i <= r -> exists p, path i (i + d) p).
    { intros d Hd. pattern d. apply natlike_ind; auto.
      - intros _. rewrite Z.add_0_r. eauto.
      - intros x Hx IH Hr'. destruct IH as (p & Hp); [lia|]. exists (p ++ [(i, i + Z.succ x)]).
        econstructor; eauto; [right; left|]; lia. }
    replace j with (i + (j - i)) by lia. apply E; lia.
  - destruct (D j Hj) as (p0 & Hp0).
    assert (E : forall d, 0 <= d -> j + d - j <= r -> exists p, path (j + d) j p).
    { intros d Hd. pattern d. apply natlike_ind; auto.
      - intros _. rewrite Z.add_0_r. eauto.
      - intros x Hx IH Hr'. destruct IH as (p & Hp); [lia|]. exists (p ++ [(j + Z.succ x, j)]).
        econstructor; eauto; [left|]; lia. }
    replace i with (j + (i - j)) by lia. apply E; lia.
Qed.

(** ** The program. *)
Hypothesis Hov : no_overflow N a b r.
Hypothesis Hm : 2 <= m.
Hypothesis Hn : 2 <= n.
Local Notation mget := (mget N).

Lemma opt_fin i j v : opt i j v -> i < m -> j < n -> lt v (ninf N).
Proof. intros ((p & Hp & <-) & _) Hi Hj. eapply Hov; eauto. Qed.

Definition done (cst : list (list T)) (i j : Z) : Prop := exists v, mget cst i j = Ok v /\ opt i j v.

(** First column, then first row. *)
Lemma col_loop cst : shape N m n cst -> mget cst 0 0 = Ok (c 0 0) ->
  Post (for_ 1 (Z.min (2 * r + 1) m) (dtw_col N a b) cst) (fun cst' =>
    shape N m n cst' /\ (forall i, 0 <= i <= r -> i < m -> done cst' i 0) /\
    (forall i j, j <> 0 -> mget cst' i j = mget cst i j)).
Proof.
  intros Hs H00.
  eapply Post_conseq.
  - apply (for_rule (fun k cst' => shape N m n cst' /\ pos (c 0 0) /\
      (exists v, mget cst' (k - 1) 0 = Ok v) /\
      (forall i, 0 <= i <= r -> i < k -> i < m -> done cst' i 0) /\
      (forall i j, j <> 0 -> mget cst' i j = mget cst i j))).
    + split; auto. split; [apply c_pos; lia|]. split; [eauto|]. split; auto. intros i Hi Hk _. assert (i = 0) by lia; subst.
      exists (c 0 0). split; auto. apply opt_00; lia.
    + intros k cst' Hk (Hs' & P00 & (v0 & Ev0) & Hd & Hf). unfold dtw_col. rewrite Ev0. cbn [bind].
      rewrite !ts_at_Ok by lia. cbn [bind].
      destruct (mset_Ok N m n cst' k 0 (nadd N v0 (c k 0)) Hs') as (c2 & E & Hs2 & Hg & Hne); [lia..|].
      rewrite E. cbn [Post wp]. split; auto. split; auto.
      replace (k + 1 - 1) with k by lia. split; [eauto|]. split.
      * intros i Hi Hik Him. destruct (Z.eq_dec i k) as [->|Hik'].
        -- exists (nadd N v0 (c k 0)). split; auto.
           destruct (Hd (k - 1)) as (v & Ev & Ov); [lia..|]. assert (v = v0) by congruence; subst v.
           apply opt_step; try lia.
           ++ eapply opt_pos; eauto; lia.
           ++ exists (k - 1), 0. split; auto. left. lia.
           ++ intros i0 j0 S Hi0 Hj0 _. assert (i0 = k - 1 /\ j0 = 0) as (-> & ->) by (destruct S as [?|[?|?]]; lia).
              exists v0. split; auto. apply (le_refl N pos PO). eapply opt_pos; eauto; lia.
        -- destruct (Hd i) as (v & Ev & Ov); [lia..|]. exists v. split; auto.
           rewrite Hne by (left; lia). auto.
      * intros i j Hj. rewrite Hne by (right; lia). auto.
  - intros cst' (Hs' & _ & _ & Hd & Hf). split; auto. split; auto. intros i Hi Him. apply Hd; lia.
Qed.

Lemma row_loop cst : shape N m n cst -> (forall i, 0 <= i <= r -> i < m -> done cst i 0) ->
  Post (for_ 1 (Z.min (2 * r + 1) n) (dtw_row0 N a b) cst) (fun cst' =>
    shape N m n cst' /\ (forall i, 0 <= i <= r -> i < m -> done cst' i 0) /\
    (forall j, 0 <= j <= r -> j < n -> done cst' 0 j) /\
    (forall i j, i <> 0 -> mget cst' i j = mget cst i j)).
Proof.
  intros Hs Hcol.
  eapply Post_conseq.
  - apply (for_rule (fun k cst' => shape N m n cst' /\
      (exists v, mget cst' 0 (k - 1) = Ok v) /\
      (forall j, 0 <= j <= r -> j < k -> j < n -> done cst' 0 j) /\
      (forall i j, i <> 0 -> mget cst' i j = mget cst i j))).
    + split; auto. split; [apply (mget_Ok N m n); auto; lia|]. split; auto. intros j Hj Hk _.
      assert (j = 0) by lia; subst. apply Hcol; lia.
    + intros k cst' Hk (Hs' & (v0 & Ev0) & Hd & Hf). unfold dtw_row0. rewrite Ev0. cbn [bind].
      rewrite !ts_at_Ok by lia. cbn [bind].
      destruct (mset_Ok N m n cst' 0 k (nadd N v0 (c 0 k)) Hs') as (c2 & E & Hs2 & Hg & Hne); [lia..|].
      rewrite E. cbn [Post wp]. split; auto.
      replace (k + 1 - 1) with k by lia. split; [eauto|]. split.
      * intros j Hj Hjk Hjn. destruct (Z.eq_dec j k) as [->|Hjk'].
        -- exists (nadd N v0 (c 0 k)). split; auto.
           destruct (Hd (k - 1)) as (v & Ev & Ov); [lia..|]. assert (v = v0) by congruence; subst v.
           apply opt_step; try lia.
           ++ eapply opt_pos; eauto; lia.
           ++ exists 0, (k - 1). split; auto. right; left. lia.
           ++ intros i0 j0 S Hi0 Hj0 _. assert (i0 = 0 /\ j0 = k - 1) as (-> & ->) by (destruct S as [?|[?|?]]; lia).
              exists v0. split; auto. apply (le_refl N pos PO). eapply opt_pos; eauto; lia.
        -- destruct (Hd j) as (v & Ev & Ov); [lia..|]. exists v. split; auto.
           rewrite Hne by (right; lia). auto.
      * intros i j Hi. rewrite Hne by (left; lia). auto.
  - intros cst' (Hs' & _ & Hd & Hf). split; auto. split; [|split]; auto.
    + intros i Hi Him. destruct (Z.eq_dec i 0) as [->|Hi0].
      * apply Hd; lia.
      * destruct (Hcol i Hi Him) as (v & Ev & Ov). exists v. rewrite Hf by auto. auto.
    + intros j Hj Hjn. apply Hd; lia.
Qed.

(** The inner loop. *)
Definition inv_row (i : Z) (cst : list (list T)) : Prop :=
  shape N m n cst /\
  (forall i' j, 0 <= i' < i -> 0 <= j < n -> Z.abs (i' - j) <= r -> done cst i' j) /\
  (forall i', 0 <= i' <= r -> i' < m -> done cst i' 0) /\
  (r < Z.abs (m - n) -> mget cst (m - 1) (n - 1) = Ok (ninf N)).

(** [best] is INF or the value of a cell of row [i] in columns < j, and not above any of them. *)
Definition row_best (i j : Z) (best : T) : Prop :=
  pos best /\
  (forall j', 0 <= j' < j -> Z.abs (i - j') <= r -> forall v, opt i j' v -> le best v).

Lemma inner_loop i cst : 1 <= i < m -> inv_row i cst ->
  Post (for_ (Z.max (i - r) 0) (Z.min (i + r) (n - 1) + 1) (dtw_cell N a b r i) (cst, ninf N))
    (fun s => inv_row (i + 1) (fst s) /\ row_best i n (snd s)).
Proof.
  intros Hi (Hs & Hd & Hc & Hl).
  eapply Post_conseq.
  - apply (for_rule (fun j s => shape N m n (fst s) /\
       (forall i' j', 0 <= i' < i -> 0 <= j' < n -> Z.abs (i' - j') <= r -> done (fst s) i' j') /\
       (forall i', 0 <= i' <= r -> i' < m -> done (fst s) i' 0) /\
       (r < Z.abs (m - n) -> mget (fst s) (m - 1) (n - 1) = Ok (ninf N)) /\
       (forall j', 0 <= j' < j -> j' < n -> Z.abs (i - j') <= r -> done (fst s) i j') /\
       row_best i j (snd s))).
    + cbn [fst snd]. do 4 (split; auto). split.
      * intros j' Hj' _ Hband. lia.
      * split; [apply (c_pos_inf _ _ _ L)|]. intros; lia.
    + intros j [cst' best] Hj (Hs' & Hd' & Hc' & Hl' & Hrow & (Pb & Hb')). cbn [fst snd] in *.
      unfold dtw_cell. destruct (j =? 0) eqn:Ej0.
      * apply Z.eqb_eq in Ej0; subst j.
        destruct (Hc' i) as (v & Ev & Ov); [lia..|]. rewrite Ev. cbn [bind Post wp fst snd].
        do 4 (split; auto). split.
        -- intros j' H1 H2 H3. assert (j' = 0) by lia; subst. exists v; auto.
        -- assert (pos v) by (eapply opt_pos; eauto; lia).
           split; [apply smin_ok; auto|].
           intros j' H1 H2 w Ow. assert (j' = 0) by lia; subst.
           rewrite (opt_unique _ _ _ _ Ow Ov) by lia. apply (smin_le_r N pos PO); auto.
      * apply Z.eqb_neq in Ej0.
        (* the three predecessors *)
        destruct (Hd' (i - 1) (j - 1)) as (vd & Evd & Ovd); [lia..|].
        assert (Pd : pos vd) by (eapply opt_pos; eauto; lia).
        assert (Fd : lt vd (ninf N)) by (eapply opt_fin; eauto; lia).
        destruct (mget_Ok N m n cst' (i - 1) j Hs') as (raw & Eraw); [lia..|].
        assert (HL : exists vl, (if (i - r <=? j - 1) && (j - 1 <=? i + r) then mget cst' i (j - 1)
                          else Ok (ninf N)) = Ok vl /\ pos vl /\
                     (Z.abs (i - (j - 1)) <= r -> mget cst' i (j - 1) = Ok vl /\ opt i (j - 1) vl) /\
                     (~ Z.abs (i - (j - 1)) <= r -> vl = ninf N)).
        { destruct ((i - r <=? j - 1) && (j - 1 <=? i + r)) eqn:E.
          - destruct (Hrow (j - 1)) as (v & Ev & Ov); [lia..|]. exists v. split; auto.
            split; [eapply opt_pos; eauto; lia|]. split; auto. intros; lia.
          - exists (ninf N). split; auto. split; [apply (c_pos_inf _ _ _ L)|]. split; auto. intros; lia. }
        destruct HL as (vl & El & Pl & HlIn & HlOut).
        assert (HU : exists vu, (if (j - r <=? i - 1) && (i - 1 <=? j + r) then mget cst' (i - 1) j
                          else Ok (ninf N)) = Ok vu /\ pos vu /\
                     (Z.abs (i - 1 - j) <= r -> mget cst' (i - 1) j = Ok vu /\ opt (i - 1) j vu) /\
                     (~ Z.abs (i - 1 - j) <= r -> vu = ninf N)).
        { destruct ((j - r <=? i - 1) && (i - 1 <=? j + r)) eqn:E.
          - destruct (Hd' (i - 1) j) as (v & Ev & Ov); [lia..|]. exists v. split; auto.
            split; [eapply opt_pos; eauto; lia|]. split; auto. intros; lia.
          - exists (ninf N). split; auto. split; [apply (c_pos_inf _ _ _ L)|]. split; auto. intros; lia. }
        destruct HU as (vu & Eu & Pu & HuIn & HuOut).
        rewrite El. cbn [bind]. rewrite Evd. cbn [bind]. rewrite Eu. cbn [bind]. rewrite Eraw. cbn [bind].
        (* the selected minimum *)
        assert (HM : exists mp, (if nltb N vd vl && nltb N vd vu then Ok vd
                      else if nltb N vl vu then mget cst' i (j - 1) else Ok raw) = Ok mp /\ pos mp /\
                     (exists i0 j0, warp_step i0 j0 i j /\ opt i0 j0 mp) /\
                     le mp vd /\ le mp vl /\ le mp vu).
        { destruct (nltb N vd vl && nltb N vd vu) eqn:E1.
          - apply andb_true_iff in E1 as (E1 & E2). exists vd. split; auto. split; auto. split.
            + exists (i - 1), (j - 1). split; auto. right; right; lia.
            + split; [apply (le_refl N pos PO); auto|]. split; apply (lt_le N pos PO); auto.
          - destruct (nltb N vl vu) eqn:E2.
            + assert (Hin : Z.abs (i - (j - 1)) <= r).
              { destruct (Z_le_gt_dec (Z.abs (i - (j - 1))) r); auto. exfalso.
                rewrite HlOut in E2 by lia. apply (lt_not_le N _ _ E2). apply (c_le_inf _ _ _ L); auto. }
              destruct (HlIn Hin) as (Eg & Og). exists vl. split; auto. split; auto. split.
              * exists i, (j - 1). split; auto. right; left; lia.
              * assert (le vl vd).
                { apply andb_false_iff in E1 as [E1|E1]; auto.
                  apply (ord_trans _ _ PO) with vu; auto. apply (lt_le N pos PO); auto. }
                split; auto. split; [apply (le_refl N pos PO); auto|apply (lt_le N pos PO); auto].
            + assert (Hud : le vu vd).
              { apply andb_false_iff in E1 as [E1|E1]; auto.
                apply (ord_trans _ _ PO) with vl; auto. }
              assert (Hin : Z.abs (i - 1 - j) <= r).
              { destruct (Z_le_gt_dec (Z.abs (i - 1 - j)) r); auto. exfalso.
                rewrite HuOut in Hud by lia. apply (lt_not_le N _ _ Fd). auto. }
              destruct (HuIn Hin) as (Eg & Og). assert (raw = vu) by congruence; subst raw.
              exists vu. split; auto. split; auto. split.
              * exists (i - 1), j. split; auto. left; lia.
              * split; auto. split; auto. apply (le_refl N pos PO); auto. }
        destruct HM as (mp & Emp & Pmp & Hex & Ld & Ll & Lu). rewrite Emp. cbn [bind].
        rewrite !ts_at_Ok by lia. cbn [bind].
        assert (Onew : opt i j (nadd N mp (c i j))).
        { apply opt_step; try lia; auto. intros i0 j0 S Hi0 Hj0 Hband.
          destruct S as [(-> & ->)|[(-> & ->)|(-> & ->)]].
          - replace (i0 + 1 - 1) with i0 in * by lia. destruct (HuIn Hband) as (_ & Og). eauto.
          - replace (j0 + 1 - 1) with j0 in * by lia. destruct (HlIn Hband) as (_ & Og). eauto.
          - replace (i0 + 1 - 1) with i0 in * by lia. replace (j0 + 1 - 1) with j0 in * by lia. eauto. }
        destruct (mset_Ok N m n cst' i j (nadd N mp (c i j)) Hs') as (c2 & E2 & Hs2 & Hg & Hne); [lia..|].
        rewrite E2. cbn [bind Post wp fst snd]. split; auto. split; [|split; [|split; [|split]]].
        -- intros i' j' H1 H2 H3. destruct (Hd' i' j' H1 H2 H3) as (v & Ev & Ov). exists v.
           rewrite Hne by lia. auto.
        -- intros i' H1 H2. destruct (Hc' i' H1 H2) as (v & Ev & Ov). exists v. rewrite Hne by lia. auto.
        -- intros H1. rewrite Hne by lia. auto.
        -- intros j' H1 H2 H3. destruct (Z.eq_dec j' j) as [->|Hjj].
           ++ eexists; split; eauto.
           ++ destruct (Hrow j') as (v & Ev & Ov); [lia..|]. exists v. rewrite Hne by lia. auto.
        -- assert (Pn : pos (nadd N mp (c i j))) by (eapply opt_pos; eauto; lia).
           split; [apply smin_ok; auto|].
           intros j' H1 H2 w Ow. destruct (Z.eq_dec j' j) as [->|Hjj].
           ++ rewrite (opt_unique _ _ _ _ Ow Onew) by lia. apply (smin_le_r N pos PO); auto.
           ++ assert (pos w) by (eapply opt_pos; eauto; lia).
              apply (ord_trans _ _ PO) with best; auto.
              ** apply smin_ok; auto.
              ** apply (smin_le_l N pos PO); auto.
              ** apply (Hb' j'); auto. lia.
  - intros [cst' best] (Hs' & Hd' & Hc' & Hl' & Hrow & (Pb & Hb')). cbn [fst snd] in *.
    split.
    + split; auto. split; [|split]; auto. intros i' j' H1 H2 H3.
      destruct (Z.eq_dec i' i) as [->|Hii].
      * apply Hrow; lia.
      * apply Hd'; lia.
    + split; auto. intros j' H1 H2. apply Hb'; lia.
Qed.

(** The optimal cost, or INF. *)
Lemma dtw_cost_pos C : dtw_cost N a b r C -> pos C.
Proof.
  intros [O|(_ & ->)].
  - eapply opt_pos; eauto; lia.
  - apply (c_pos_inf _ _ _ L).
Qed.
Lemma dtw_cost_unique C D : dtw_cost N a b r C -> dtw_cost N a b r D -> C = D.
Proof.
  intros [O|(H & ->)] [O'|(H' & ->)]; auto.
  - eapply opt_unique; eauto; lia.
  - destruct O as ((p & Hp & _) & _). elim (H' _ Hp).
  - destruct O' as ((p & Hp & _) & _). elim (H _ Hp).
Qed.

(** Rows cut all paths. *)
Lemma cut i best C : 1 <= i < m -> row_best i n best ->
  (forall j, 0 <= j < n -> Z.abs (i - j) <= r -> exists v, opt i j v) ->
  dtw_cost N a b r C -> le best C.
Proof.
  intros Hi (Pb & Hb') Hex [O|(H & ->)].
  - pose proof O as ((p & Hp & E) & _). assert (pos C) by (eapply opt_pos; eauto; lia).
    destruct (path_through _ _ _ i Hp) as (j0 & p0 & Hp0 & Hj0 & Hle); [lia..|].
    pose proof (path_range _ _ _ Hp0).
    destruct (Hex j0) as (v & Ov); [lia..|].
    assert (pos v) by (eapply opt_pos; eauto; lia).
    assert (pos (cost p0)) by (eapply cost_pos; eauto; lia).
    apply (ord_trans _ _ PO) with v; auto.
    + eapply Hb'; eauto; lia.
    + apply (ord_trans _ _ PO) with (cost p0); auto.
      * apply (proj2 Ov); auto.
      * rewrite <- E; auto.
  - apply (c_le_inf _ _ _ L); auto.
Qed.

(** Outer loop: not dropped, or dropped with every path above the squared dropout. *)
Lemma outer_loop idrop cst : pos idrop -> inv_row 1 cst ->
  Post (forb 1 m (dtw_row N a b r idrop) (cst, false)) (fun s =>
    (snd s = false /\ inv_row m (fst s)) \/
    (snd s = true /\ forall C, dtw_cost N a b r C -> lt idrop C)).
Proof.
  intros Pd Hinv. eapply Post_conseq.
  - apply (forb_rule (fun i s => snd s = false /\ inv_row i (fst s))
             (fun s => snd s = true /\ forall C, dtw_cost N a b r C -> lt idrop C)).
    + cbn. auto.
    + intros i [cst' dr] Hi (Ed & Hi'). cbn [fst snd] in *. subst dr. unfold dtw_row.
      eapply Post_seq; [apply inner_loop; auto; lia|].
      intros [c2 best] (H1 & H2). cbn [fst snd] in *.
      destruct (nltb N idrop best) eqn:E; cbn.
      * split; auto. intros C HC.
        assert (le best C).
        { eapply cut; eauto. intros j Hj Hband. destruct H1 as (_ & H1 & _).
          destruct (H1 i j) as (v & _ & Ov); [lia..|]. eauto. }
        apply (lt_le_trans N pos PO) with best; auto; [apply H2|]. now apply dtw_cost_pos.
      * auto.
  - intros s [(H1 & H2)|H]; auto. left. split; auto. replace (Z.max 1 m) with m in H2 by lia. auto.
Qed.

Lemma dtw_cost_exists cst : inv_row m cst -> exists C, dtw_cost N a b r C /\ mget cst (m - 1) (n - 1) = Ok C.
Proof.
  intros (Hs & Hd & _ & Hl). destruct (Z_le_gt_dec (Z.abs (m - n)) r).
  - destruct (Hd (m - 1) (n - 1)) as (v & Ev & Ov); [lia..|]. exists v. split; auto. now left.
  - exists (ninf N). split; [|apply Hl; lia]. right. split; auto.
    intros p Hp. apply path_range in Hp. lia.
Qed.

Lemma wd_aux ratio d : calculateWarpingBandSize N ratio (Z.max m n) = Ok r ->
  klen (Z.max m n) -> pos d ->
  Post (warpedDistance N ratio a b d) (fun w =>
    (exists C, dtw_cost N a b r C /\ w = euc_norm_dtw N C (Z.max m n)) \/
    (w = ninf N /\ forall C, dtw_cost N a b r C -> lt (euc_inorm_dtw N d (Z.max m n)) C)).
Proof.
  intros Hband Hk Pd. unfold warpedDistance. rewrite Hband. cbn [bind].
  destruct ((m =? 1) && (n =? 1)) eqn:E11; [lia|].
  destruct (mset_Ok N m n (zrepeat (zrepeat (nzero N) n) m) (m - 1) (n - 1) (ninf N))
    as (c1 & E1 & S1 & G1 & F1); [apply shape_init; lia|lia..|].
  rewrite E1. cbn [bind]. rewrite !ts_at_Ok by lia. cbn [bind].
  destruct (mset_Ok N m n c1 0 0 (c 0 0) S1) as (c2 & E2 & S2 & G2 & F2); [lia..|].
  rewrite E2. cbn [bind].
  eapply Post_seq; [apply col_loop; auto|]. intros c3 (S3 & D3 & F3).
  eapply Post_seq; [apply row_loop; auto|]. intros c4 (S4 & D4 & R4 & F4).
  eapply Post_seq; [apply (outer_loop (euc_inorm_dtw N d (Z.max m n)))|].
  - apply (c_idtw_pos _ _ _ L); auto.
  - split; auto. split; [|split]; auto.
    + intros i' j H1 H2 H3. assert (i' = 0) by lia; subst. apply R4; lia.
    + intros H1. rewrite F4, F3, F2, G1 by lia. auto.
  - intros [c5 dr] [(E5 & I5)|(E5 & H5)]; cbn [fst snd] in *; subst dr.
    + destruct (dtw_cost_exists c5 I5) as (C & HC & EC). rewrite EC. cbn. left. eauto.
    + cbn. right. split; auto. apply (c_ndtw_inf _ _ _ L); auto.
Qed.

(** The optimum exists. *)
Lemma opt_total_aux : forall k i j, 0 <= i < m -> 0 <= j < n -> Z.abs (i - j) <= r ->
  i + j <= Z.of_nat k -> exists v, opt i j v.
Proof.
  induction k as [|k IH]; intros i j Hi Hj Hband Hk.
  - assert (i = 0 /\ j = 0) as (-> & ->) by lia. eexists; apply opt_00; lia.
  - destruct (Z.eq_dec i 0) as [->|Hi0]; [destruct (Z.eq_dec j 0) as [->|Hj0]|].
    + eexists; apply opt_00; lia.
    + destruct (IH 0 (j - 1)) as (v & Ov); [lia..|].
      exists (nadd N v (c 0 j)). assert (pos v) by (eapply opt_pos; eauto; lia).
      apply opt_step; try lia; auto.
      * exists 0, (j - 1). split; auto. right; left; lia.
      * intros i0 j0 S H0 H1 _. assert (i0 = 0 /\ j0 = j - 1) as (-> & ->) by (destruct S as [?|[?|?]]; lia).
        exists v; split; auto. apply (le_refl N pos PO); auto.
    + destruct (Z.eq_dec j 0) as [->|Hj0].
      * destruct (IH (i - 1) 0) as (v & Ov); [lia..|].
        exists (nadd N v (c i 0)). assert (pos v) by (eapply opt_pos; eauto; lia).
        apply opt_step; try lia; auto.
        -- exists (i - 1), 0. split; auto. left; lia.
        -- intros i0 j0 S H0 H1 _. assert (i0 = i - 1 /\ j0 = 0) as (-> & ->) by (destruct S as [?|[?|?]]; lia).
           exists v; split; auto. apply (le_refl N pos PO); auto.
      * destruct (IH (i - 1) (j - 1)) as (vd & Od); [lia..|].
        assert (Pd : pos vd) by (eapply opt_pos; eauto; lia).
        (* candidate of one neighbour *)
        assert (A : forall i0 j0, warp_step i0 j0 i j -> 0 <= i0 -> 0 <= j0 -> i0 + j0 = i + j - 1 ->
           forall x, pos x -> (exists i1 j1, warp_step i1 j1 i j /\ opt i1 j1 x) ->
           exists y, pos y /\ le y x /\ (exists i1 j1, warp_step i1 j1 i j /\ opt i1 j1 y) /\
             (Z.abs (i0 - j0) <= r -> exists w, opt i0 j0 w /\ le y w)).
        { intros i0 j0 S H0 H1 H2 x Px Hx. destruct (Z_le_gt_dec (Z.abs (i0 - j0)) r).
          - destruct (IH i0 j0) as (w & Ow); [destruct S as [?|[?|?]]; lia..|].
            assert (pos w) by (eapply opt_pos; eauto; destruct S as [?|[?|?]]; lia).
            exists (smin N x w). split; [apply smin_ok; auto|].
            split; [apply (smin_le_l N pos PO); auto|]. split.
            + destruct (smin_cases N x w) as [-> | ->]; eauto.
            + intros _. exists w. split; auto. apply (smin_le_r N pos PO); auto.
          - exists x. split; auto. split; [apply (le_refl N pos PO); auto|]. split; auto. intros; lia. }
        destruct (A (i - 1) j ltac:(left; lia) ltac:(lia) ltac:(lia) ltac:(lia) vd Pd) as (x & Px & Lx & Hx & Ux).
        { exists (i - 1), (j - 1). split; auto. right; right; lia. }
        destruct (A i (j - 1) ltac:(right; left; lia) ltac:(lia) ltac:(lia) ltac:(lia) x Px Hx)
          as (y & Py & Ly & Hy & Uy).
        exists (nadd N y (c i j)). apply opt_step; try lia; auto.
        intros i0 j0 S H0 H1 Hb0. destruct S as [(-> & ->)|[(-> & ->)|(-> & ->)]].
        -- replace (i0 + 1 - 1) with i0 in * by lia. destruct (Ux Hb0) as (w & Ow & Lw).
           exists w. split; auto. apply (ord_trans _ _ PO) with x; auto. eapply opt_pos; eauto; lia.
        -- replace (j0 + 1 - 1) with j0 in * by lia. apply Uy; auto.
        -- replace (i0 + 1 - 1) with i0 in * by lia. replace (j0 + 1 - 1) with j0 in * by lia.
           exists vd. split; auto. apply (ord_trans _ _ PO) with x; auto.
Qed.
Lemma dtw_cost_total : exists C, dtw_cost N a b r C.
Proof.
  destruct (Z_le_gt_dec (Z.abs (m - n)) r).
  - destruct (opt_total_aux (Z.to_nat (m + n)) (m - 1) (n - 1)) as (v & Ov); [lia..|].
    exists v. now left.
  - exists (ninf N). right. split; auto. intros p Hp. apply path_range in Hp. lia.
Qed.
End Paths.
End Dtw.
