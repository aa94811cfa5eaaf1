(** * Proofs about the distance of the UCR suite: the two rolling rows hold the costs of the band. *)
From Coq Require Import ZArith Bool Lia List.
From Verif Require Import Outcome Num Lemire Distance Laws Spec DtwProofs Trillion.
Import ListNotations.
Open Scope Z_scope.

Section Rolling.
Context (N : NumOps) (dat pos : num N -> Prop) (L : CostLaws N dat pos).
Local Notation T := (num N).
Local Notation lt := (lt N).
Local Notation le := (le N).
Let PO := c_pos_ord _ _ _ L.
Local Notation big := (big N).
Hypothesis Pbig : pos big.

Section Series.
Context (a b : list T) (r : Z).
Hypothesis Ha : Forall dat a.
Hypothesis Hb : Forall dat b.
Hypothesis Hr : 0 <= r.
Local Notation m := (zlen a).
Hypothesis Hm : 1 <= m.
Hypothesis Hlen : zlen b = m.
Local Notation c i j := (sqd N (at_ N a i) (at_ N b j)).
Local Notation path := (warp_path r).
Local Notation cost := (path_cost N a b).

(** [v] is not above the cost of any path to (i,j), and it is the cost of one if it is below 1e20. *)
Definition near (v : T) (i j : Z) : Prop :=
  pos v /\ (forall p, path i j p -> le v (cost p)) /\ (lt v big -> exists p, path i j p /\ cost p = v).

Lemma tmin_cases x y : tmin N x y = x \/ tmin N x y = y.
Proof. unfold tmin. destruct nltb; auto. Qed.
Lemma tmin_pos x y : pos x -> pos y -> pos (tmin N x y).
Proof. destruct (tmin_cases x y) as [-> | ->]; auto. Qed.
Lemma tmin_le_l x y : pos x -> pos y -> le (tmin N x y) x.
Proof. unfold tmin. destruct (nltb N x y) eqn:E; intros; [apply (le_refl N pos PO)|]; auto. Qed.
Lemma tmin_le_r x y : pos x -> pos y -> le (tmin N x y) y.
Proof. unfold tmin. destruct (nltb N x y) eqn:E; intros; [apply (lt_le N pos PO)|apply (le_refl N pos PO)]; auto. Qed.

Lemma cpos i j : 0 <= i < m -> 0 <= j < m -> pos (c i j).
Proof. intros. apply (c_pos N dat pos L a b Ha Hb); lia. Qed.
Lemma prange i j p : path i j p -> 0 <= i /\ 0 <= j /\ Z.abs (i - j) <= r.
Proof. apply path_range; auto. Qed.
Lemma costpos i j p : path i j p -> i < m -> j < m -> pos (cost p).
Proof. intros. eapply (cost_pos N dat pos L a b r); eauto; lia. Qed.
Lemma near_00 : near (c 0 0) 0 0.
Proof.
  assert (P : pos (c 0 0)) by (apply cpos; lia).
  assert (O : least_cost N a b r 0 0 (c 0 0)) by (apply (opt_00 N dat pos L); auto; lia). destruct O as ((p & Hp & E) & M).
  split; auto. split; auto. intros _. eauto.
Qed.
Lemma near_step i j w : 0 <= i < m -> 0 <= j < m -> Z.abs (i - j) <= r -> 0 < i \/ 0 < j -> pos w ->
  (lt w big -> exists i0 j0, warp_step i0 j0 i j /\ near w i0 j0) ->
  (forall i0 j0, warp_step i0 j0 i j -> 0 <= i0 -> 0 <= j0 -> Z.abs (i0 - j0) <= r -> exists v, near v i0 j0 /\ le w v) ->
  near (nadd N w (c i j)) i j.
Proof.
  intros Hi Hj Hband Hnz Pw He Ha'. assert (Pc : pos (c i j)) by (apply cpos; lia).
  split; [now apply (c_add_pos _ _ _ L)|]. split.
  - intros p Hp. apply path_inv in Hp as [(-> & -> & _)|(i1 & j1 & p1 & Hp & S1 & _ & ->)]; [lia|].
    rewrite cost_snoc. pose proof (prange _ _ _ Hp) as (R1 & R2 & R3).
    destruct (Ha' i1 j1 S1 R1 R2 R3) as (v & (Pv & Hv & _) & Lv).
    assert (pos (cost p1)) by (apply (costpos i1 j1 p1 Hp); destruct S1 as [?|[?|?]]; lia).
    apply (c_add_mono _ _ _ L); auto; [|apply (le_refl N pos PO); auto]. apply (ord_trans _ _ PO) with v; auto.
  - intros Hlt. assert (Hw : lt w big).
    { apply (le_lt_trans N pos PO) with (nadd N w (c i j)); auto; [now apply (c_add_pos _ _ _ L)|]. now apply (add_le_l N dat pos L). }
    destruct (He Hw) as (i0 & j0 & S & (_ & _ & E)). destruct (E Hw) as (p & Hp & <-). exists (p ++ [(i, j)]). split; [econstructor; eauto|].
    apply cost_snoc.
Qed.

(** Row [i] in an array of 2r+1 cells: cell (i,j) is at position j - i + r. *)
Definition row_holds (row : list T) (i hi : Z) : Prop :=
  forall j, j < hi -> 0 <= j < m -> Z.abs (i - j) <= r -> exists v, zget row (j - i + r) = Ok v /\ near v i j.
Definition below_row (mc : T) (i hi : Z) : Prop :=
  pos mc /\ forall j p, j < hi -> path i j p -> le mc (cost p).

Lemma below_min mc v i j : 0 <= i < m -> j < m -> below_row mc i j -> near v i j -> below_row (if nltb N v mc then v else mc) i (j + 1).
Proof.
  intros Hi Hj (Pm & Hmc) (Pv & Hv & _). set (x := if nltb N v mc then v else mc).
  assert (Px : pos x) by (unfold x; destruct nltb; auto).
  assert (X1 : le x v) by (unfold x; destruct (nltb N v mc) eqn:E; [apply (le_refl N pos PO)|]; auto).
  assert (X2 : le x mc) by (unfold x; destruct (nltb N v mc) eqn:E; [apply (lt_le N pos PO)|apply (le_refl N pos PO)]; auto).
  split; auto. intros j' p Hj' Hp. assert (pos (cost p)) by (apply (costpos i j' p Hp); lia).
  destruct (Z.eq_dec j' j) as [->|]; [apply (ord_trans _ _ PO) with v; auto|]. apply (ord_trans _ _ PO) with mc; auto. apply (Hmc j'); auto. lia.
Qed.
Lemma zget_at (l : list T) i : 0 <= i < zlen l -> zget l i = Ok (at_ N l i).
Proof. intros. now apply zget_nth. Qed.

Lemma cell_ok i j prev cst k mc : 0 <= i < m -> Z.max 0 (i - r) <= j <= Z.min (m - 1) (i + r) ->
  zlen prev = 2 * r + 1 -> (0 < i -> row_holds prev (i - 1) m) ->
  zlen cst = 2 * r + 1 -> k = j - i + r -> row_holds cst i j -> below_row mc i j ->
  Post (t_cell N a b prev r i j (cst, k, mc)) (fun s => let '(cst', k', mc') := s in
    zlen cst' = 2 * r + 1 /\ k' = j + 1 - i + r /\ row_holds cst' i (j + 1) /\ below_row mc' i (j + 1)).
Proof.
  intros Hi Hj Hp HP Hc -> HC HB.
  assert (W : forall v mc', near v i j -> mc' = (if nltb N v mc then v else mc) \/ (i = 0 /\ j = 0 /\ mc' = v) ->
    exists c', zset cst (j - i + r) v = Ok c' /\ zlen c' = 2 * r + 1 /\ row_holds c' i (j + 1) /\ below_row mc' i (j + 1)).
  { intros v mc' Nv Hmc. pose proof (zset_Ok cst (j - i + r) v ltac:(lia)) as E. set (c' := list_set cst (Z.to_nat (j - i + r)) v) in *. clearbody c'. exists c'. split; auto.
    pose proof (zset_len _ _ _ _ E) as Hc'.
    split; [lia|]. split.
    - intros j' H1 H2 H3. destruct (Z.eq_dec j' j) as [->|].
      + exists v. split; auto. eapply zget_zset_eq; eauto.
      + destruct (HC j') as (w & Ew & Nw); [lia..|]. exists w. split; auto. rewrite <- Ew. eapply zget_zset_neq; eauto. lia.
    - destruct Hmc as [->|(-> & -> & ->)]; [apply below_min; auto; lia|]. destruct Nv as (Pv & Hv & _). split; auto.
      intros j' p Hj' Hp'. destruct (Z.eq_dec j' 0) as [->|]; [now apply Hv|]. apply prange in Hp'. lia. }
  unfold t_cell. destruct ((i =? 0) && (j =? 0)) eqn:E00.
  - assert (i = 0 /\ j = 0) as (-> & ->) by lia. rewrite !zget_at by lia. cbn [bind].
    destruct (W (c 0 0) (c 0 0) near_00) as (c' & E & H1 & H2 & H3); [auto|]. rewrite E. cbn [bind Post wp]. split; auto. split; [lia|]. auto.
  - assert (Hnz : 0 < i \/ 0 < j) by lia.
    assert (HY : exists y, (if (j - 1 <? 0) || (j - i + r - 1 <? 0) then Ok big else zget cst (j - i + r - 1)) = Ok y /\ pos y /\
      (lt y big -> near y i (j - 1) /\ 0 <= j - 1) /\ (0 <= j - 1 -> Z.abs (i - (j - 1)) <= r -> near y i (j - 1))).
    { destruct ((j - 1 <? 0) || (j - i + r - 1 <? 0)) eqn:E.
      - exists big. split; auto. split; auto. split; [|lia]. intros H. exfalso. unfold Laws.lt in H. rewrite (le_refl N pos PO big Pbig) in H. discriminate.
      - destruct (HC (j - 1)) as (y & Ey & Ny); [lia..|]. exists y. replace (j - i + r - 1) with (j - 1 - i + r) by lia. split; auto.
        split; [apply Ny|]. split; auto. intros _. split; auto. lia. }
    destruct HY as (y & -> & Py & Y1 & Y2). cbn [bind].
    assert (HX : exists x, (if (i - 1 <? 0) || (2 * r <? j - i + r + 1) then Ok big else zget prev (j - i + r + 1)) = Ok x /\ pos x /\
      (lt x big -> near x (i - 1) j /\ 0 <= i - 1) /\ (0 <= i - 1 -> Z.abs (i - 1 - j) <= r -> near x (i - 1) j)).
    { destruct ((i - 1 <? 0) || (2 * r <? j - i + r + 1)) eqn:E.
      - exists big. split; auto. split; auto. split; [|lia]. intros H. exfalso. unfold Laws.lt in H. rewrite (le_refl N pos PO big Pbig) in H. discriminate.
      - destruct (HP ltac:(lia) j) as (x & Ex & Nx); [lia..|]. exists x. replace (j - i + r + 1) with (j - (i - 1) + r) by lia. split; auto.
        split; [apply Nx|]. split; auto. intros _. split; auto. lia. }
    destruct HX as (x & -> & Px & X1 & X2). cbn [bind].
    assert (HZ : exists z, (if (i - 1 <? 0) || (j - 1 <? 0) then Ok big else zget prev (j - i + r)) = Ok z /\ pos z /\
      (lt z big -> near z (i - 1) (j - 1) /\ 0 <= i - 1 /\ 0 <= j - 1) /\ (0 <= i - 1 -> 0 <= j - 1 -> near z (i - 1) (j - 1))).
    { destruct ((i - 1 <? 0) || (j - 1 <? 0)) eqn:E.
      - exists big. split; auto. split; auto. split; [|lia]. intros H. exfalso. unfold Laws.lt in H. rewrite (le_refl N pos PO big Pbig) in H. discriminate.
      - destruct (HP ltac:(lia) (j - 1)) as (z & Ez & Nz); [lia..|]. exists z. replace (j - i + r) with (j - 1 - (i - 1) + r) by lia. split; auto.
        split; [apply Nz|]. split; auto. intros _. split; auto. lia. }
    destruct HZ as (z & -> & Pz & Z1 & Z2). cbn [bind]. rewrite !zget_at by lia. cbn [bind].
    set (w := tmin N (tmin N x y) z).
    assert (Pxy : pos (tmin N x y)) by (now apply tmin_pos). assert (Pw : pos w) by (now apply tmin_pos).
    assert (Lz : le w z) by (now apply tmin_le_r). assert (Lxy : le w (tmin N x y)) by (now apply tmin_le_l).
    assert (Lx : le w x) by (apply (ord_trans _ _ PO) with (tmin N x y); auto; now apply tmin_le_l).
    assert (Ly : le w y) by (apply (ord_trans _ _ PO) with (tmin N x y); auto; now apply tmin_le_r).
    assert (Nw : near (nadd N w (c i j)) i j).
    { apply near_step; auto; try lia.
      - intros Hw. unfold w in *. destruct (tmin_cases (tmin N x y) z) as [E|E]; rewrite E in *; [destruct (tmin_cases x y) as [E'|E']; rewrite E' in *|].
        + exists (i - 1), j. split; [left; lia|]. now apply X1.
        + exists i, (j - 1). split; [right; left; lia|]. now apply Y1.
        + exists (i - 1), (j - 1). split; [right; right; lia|]. now apply Z1.
      - intros i0 j0 [(-> & ->)|[(-> & ->)|(-> & ->)]] H0 H1 H2.
        + exists x. split; auto. replace (i0 + 1 - 1) with i0 in * by lia. auto.
        + exists y. split; auto. replace (j0 + 1 - 1) with j0 in * by lia. auto.
        + exists z. split; auto. replace (i0 + 1 - 1) with i0 in * by lia. replace (j0 + 1 - 1) with j0 in * by lia. auto. }
    destruct (W _ (if nltb N (nadd N w (c i j)) mc then nadd N w (c i j) else mc) Nw) as (c' & E & H1 & H2 & H3); [auto|].
    rewrite E. cbn [bind Post wp]. split; auto. split; [lia|]. auto.
Qed.

Definition abandoned (cb : list T) (bsf v : T) : Prop :=
  exists i mc, 0 <= i /\ i + r < m - 1 /\ below_row mc i m /\ v = nadd N mc (at_ N cb (i + r + 1)) /\ nleb N bsf v = true.
Lemma dtw_ok cb bsf : zlen cb = m ->
  Post (t_dtw N a b cb m r bsf) (fun v => near v (m - 1) (m - 1) \/ abandoned cb bsf v).
Proof.
  intros Hcb. unfold t_dtw.
  apply (Post_seq (fun s => let '(cst, prev, k, ret) := s in
     (ret = None /\ k = Some (r + 1) /\ row_holds prev (m - 1) m) \/ exists v, ret = Some v /\ abandoned cb bsf v)).
  - eapply Post_conseq; [apply (forb_rule
      (fun i s => let '(cst, prev, k, ret) := s in zlen cst = 2 * r + 1 /\ zlen prev = 2 * r + 1 /\ ret = None /\
         (0 < i -> row_holds prev (i - 1) m /\ k = Some (Z.min (m - 1) (i - 1 + r) + 1 - (i - 1) + r)))
      (fun s => let '(cst, prev, k, ret) := s in exists v, ret = Some v /\ abandoned cb bsf v))|].
    + rewrite zlen_zrepeat by lia. split; auto. split; auto. split; auto. lia.
    + intros i (((cst, prev), k), ret) Hi (Hc & Hp & -> & HP). unfold t_row.
      apply (Post_seq (fun s => let '(cst', k', mc) := s in zlen cst' = 2 * r + 1 /\ k' = Z.min (m - 1) (i + r) + 1 - i + r /\
        row_holds cst' i m /\ below_row mc i m)).
      * eapply Post_conseq; [apply (for_rule (fun j s => let '(cst', k', mc) := s in zlen cst' = 2 * r + 1 /\ k' = j - i + r /\
          row_holds cst' i j /\ below_row mc i j))|].
        -- split; auto. split; [lia|]. split; [intros j' H1 H2 H3; lia|]. split; auto. intros j' p H1 H2. apply prange in H2. lia.
        -- intros j ((cst', k'), mc) Hj (H1 & H2 & H3 & H4). eapply Post_conseq; [apply (cell_ok i j prev cst' k' mc); auto; try lia|].
           ++ intros H. now apply HP.
           ++ intros ((cst2, k2), mc2). auto.
        -- intros ((cst', k'), mc) (H1 & -> & H3 & H4). rewrite Z.max_r in * by lia. split; auto. split; auto. split.
           ++ intros j' _ H5 H6. apply H3; lia.
           ++ destruct H4 as (P4 & H4). split; auto. intros j' p H5 H6. apply (H4 j'); auto. apply prange in H6. lia.
      * intros ((cst', k'), mc) (H1 & -> & H3 & H4).
        assert (Hnext : zlen prev = 2 * r + 1 /\ zlen cst' = 2 * r + 1 /\ @None T = None /\ (0 < i + 1 -> row_holds cst' (i + 1 - 1) m /\
          Some (Z.min (m - 1) (i + r) + 1 - i + r) = Some (Z.min (m - 1) (i + 1 - 1 + r) + 1 - (i + 1 - 1) + r))).
        { split; auto. split; auto. split; auto. intros _. replace (i + 1 - 1) with i by lia. auto. }
        destruct (Z.ltb_spec (i + r) (m - 1)) as [Hlt|Hge]; [|exact Hnext]. rewrite zget_at by lia. cbn [bind].
        destruct (nleb N bsf (nadd N mc (at_ N cb (i + r + 1)))) eqn:E; [|exact Hnext]. cbn. eexists. split; [reflexivity|].
        exists i, mc. split; [lia|]. auto.
    + intros (((cst, prev), k), ret) [(H1 & H2 & -> & H4)|H]; auto. left. rewrite Z.max_r in H4 by lia. destruct H4 as (H4 & ->); [lia|].
      split; auto. split; auto. f_equal. lia.
  - intros (((cst, prev), k), ret) [(-> & -> & H)|(v & -> & H)]; [|cbn; auto].
    destruct (H (m - 1)) as (v & E & Nv); [lia..|]. replace (r + 1 - 1) with (m - 1 - (m - 1) + r) by lia. rewrite E. cbn. auto.
Qed.

(** A path costs at least what its part up to row [i] costs. *)
Lemma cost_prefix i' j' p : path i' j' p -> i' < m -> j' < m -> forall i, 0 <= i <= i' -> exists j p1, j <= j' /\ path i j p1 /\ le (cost p1) (cost p).
Proof.
  induction 1 as [|i1 j1 p i2 j2 Hp IH Hs Hband]; intros Hi' Hj' i Hi.
  - exists 0, [(0, 0)]. replace i with 0 by lia. split; [lia|]. split; [constructor|]. apply (le_refl N pos PO). apply (costpos 0 0); [constructor|lia..].
  - pose proof (prange _ _ _ Hp) as (R1 & R2 & R3). assert (S : i1 <= i2 /\ j1 <= j2 /\ i2 <= i1 + 1) by (destruct Hs as [?|[?|?]]; lia).
    assert (P1 : pos (cost p)) by (apply (costpos i1 j1 p Hp); lia). assert (Pc : pos (c i2 j2)) by (apply cpos; lia).
    assert (P2 : pos (cost (p ++ [(i2, j2)]))) by (rewrite cost_snoc; now apply (c_add_pos _ _ _ L)).
    destruct (Z_le_gt_dec i i1) as [H|H].
    + destruct (IH ltac:(lia) ltac:(lia) i ltac:(lia)) as (j & p1 & Hj & Hp1 & Hc). exists j, p1. split; [lia|]. split; auto.
      apply (ord_trans _ _ PO) with (cost p); auto.
      * apply (costpos i j p1 Hp1); lia.
      * rewrite cost_snoc. now apply (add_le_l N dat pos L).
    + exists j2, (p ++ [(i2, j2)]). replace i with i2 by lia. split; [lia|]. split; [econstructor; eauto|]. now apply (le_refl N pos PO).
Qed.
Lemma dtw_zero cb bsf v p : zlen cb = m -> (forall k, 0 <= k < m -> at_ N cb k = nzero N) ->
  near v (m - 1) (m - 1) \/ abandoned cb bsf v -> path (m - 1) (m - 1) p -> le v (cost p).
Proof.
  intros Hcb Hz [(_ & H & _)|(i & mc & Hi & Hir & (P & B) & -> & _)] Hp; [now apply H|].
  rewrite Hz by lia. rewrite (c_add_0 _ _ _ L) by auto. destruct (cost_prefix _ _ _ Hp ltac:(lia) ltac:(lia) i ltac:(lia)) as (j & p1 & Hj & Hp1 & Hc).
  apply (ord_trans _ _ PO) with (cost p1); auto; [apply (costpos i j p1 Hp1); lia|apply (costpos (m - 1) (m - 1) p Hp); lia|]. apply (B j); auto; lia.
Qed.
End Series.
End Rolling.
