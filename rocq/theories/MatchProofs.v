(** * Matching: the search for the best group and the best member. *)
From Coq Require Import ZArith Bool Lia String Sorted Permutation List.
From Verif Require Import Outcome Num Lemire Distance TimeSeries Text Dataset Groups Laws Spec DtwProofs KeoghProofs SafeDist TraverseProofs.
From Verif Require Import TsProofs GroupProofs.
Import ListNotations.
Open Scope Z_scope.

Section Match.
Context (N : NumOps) (dat pos : num N -> Prop) (CL : CostLaws N dat pos).
Local Notation T := (num N).
Local Notation lt := (Laws.lt N).
Local Notation le := (Laws.le N).
Let PO := c_pos_ord _ _ _ CL.

(** [nb d w]: a candidate at distance [w] is not better than [d]. *)
Context (nb : T -> T -> Prop).
Hypothesis nb_le : forall d w, pos d -> pos w -> le d w -> nb d w.
Hypothesis nb_drop : forall d C k, klen k -> pos d -> pos C -> lt (euc_inorm_dtw N d k) C -> nb d (euc_norm_dtw N C k).
Hypothesis nb_down : forall d d' w, pos d -> pos d' -> pos w -> le d' d -> nb d w -> nb d' w.
(** In addition, a finite distance is not kept out by an infinite one. *)
Definition behind (d w : T) : Prop := nb d w /\ (lt w (ninf N) -> lt d (ninf N)).
Lemma behind_le d w : pos d -> pos w -> le d w -> behind d w.
Proof.
  intros Pd Pw H. split; [now apply nb_le|]. intros Hw.
  apply (le_lt_trans N pos PO d w); auto. apply (c_pos_inf _ _ _ CL).
Qed.
Lemma behind_down d d' w : pos d -> pos d' -> pos w -> le d' d -> behind d w -> behind d' w.
Proof.
  intros Pd Pd' Pw H (A & B). split; [now apply (nb_down d)|]. intros Hw.
  apply (le_lt_trans N pos PO d' d); auto. apply (c_pos_inf _ _ _ CL).
Qed.

(** The dataset, as in [GroupProofs]. *)
Context (h : heap N) (s : tset) (b : nat) (data : list T).
Hypothesis Hbuf : set_buf s = Some b.
Hypothesis Hheap : heap_get N h b = Ok data.
Hypothesis Hdat : Forall dat data.
Hypothesis Hlen : set_len s <= 2 ^ 30.
Hypothesis Hcnt : 0 <= set_count s.
Hypothesis Hsize : set_count s * set_len s <= zlen data.

(** The query. *)
Context (q0 : ts N) (qv : list T).
Hypothesis Hq : ts_read N h q0 = Ok qv.
Hypothesis Hql : ts_len q0 = zlen qv.
Hypothesis Hqdat : Forall dat qv.
Hypothesis Hqlen : 2 <= zlen qv <= set_len s.

(** The warping band. *)
Context (ratio : T) (bw : Z -> Z).
Hypothesis Hbw : forall k, 1 <= k <= set_len s -> calculateWarpingBandSize N ratio k = Ok (bw k).
Hypothesis Hbw0 : forall k, 1 <= k <= set_len s -> 0 <= bw k.
Hypothesis Hov : forall L c, 2 <= L <= set_len s -> valid s L c ->
  no_overflow N qv (vals N s data L c) (bw (Z.max (zlen qv) L)).

Local Notation valid := (valid s).
Local Notation vals := (vals N s data).

(** Distance between the query and a subsequence. *)
Definition W (L : Z) (c : coord) : T :=
  match warpedDistance N ratio qv (vals L c) (ninf N) with Ok w => w | _ => ninf N end.

Lemma vlen L c : 2 <= L <= set_len s -> valid L c -> zlen (vals L c) = L.
Proof. intros HL Hv. apply vals_len; auto. lia. Qed.
Lemma vdat L c : Forall dat (vals L c).
Proof. apply (vals_dat N dat pos). split; auto. Qed.

Lemma W_cost L c : 2 <= L <= set_len s -> valid L c ->
  exists C, dtw_cost N qv (vals L c) (bw (Z.max (zlen qv) L)) C /\ pos C /\
    warpedDistance N ratio qv (vals L c) (ninf N) = Ok (W L c) /\
    W L c = euc_norm_dtw N C (Z.max (zlen qv) L).
Proof.
  intros HL Hv. pose proof (vlen L c HL Hv) as E.
  destruct (wd_inf N dat pos CL ratio qv (vals L c) (bw (Z.max (zlen qv) L))) as (C & HC & Ew);
    rewrite ?E; auto using vdat; try (unfold klen); try lia.
  - apply Hbw. lia.
  - apply Hbw0. lia.
  - exists C. split; auto. split.
    + apply (dtw_cost_pos N dat pos CL qv (vals L c) (bw (Z.max (zlen qv) L))); auto using vdat; apply Hbw0; lia.
    + unfold W. rewrite Ew, E. auto.
Qed.
Lemma W_pos L c : 2 <= L <= set_len s -> valid L c -> pos (W L c).
Proof.
  intros HL Hv. destruct (W_cost L c HL Hv) as (C & _ & PC & _ & ->). apply (c_ndtw_pos _ _ _ CL); auto. unfold klen. lia.
Qed.

(** The cascade on values, both ways round. *)
Definition casc_ok (L : Z) (c : coord) (d w : T) : Prop :=
  pos w /\ (w = W L c \/ (w = ninf N /\ behind d (W L c))).
Lemma casc_of L c d C w : 2 <= L <= set_len s -> valid L c -> pos d -> pos C -> W L c = euc_norm_dtw N C (Z.max (zlen qv) L) ->
  ((w = ninf N /\ lt d (W L c)) \/ w = W L c \/ (w = ninf N /\ lt (euc_inorm_dtw N d (Z.max (zlen qv) L)) C)) ->
  casc_ok L c d w.
Proof.
  intros HL Hv Pd PC EW H. pose proof (W_pos L c HL Hv) as PW. pose proof (c_pos_inf _ _ _ CL) as PI.
  assert (K : klen (Z.max (zlen qv) L)) by (unfold klen; lia).
  destruct H as [(-> & H)|[->|(-> & H)]]; (split; [auto|]); auto; right; (split; [reflexivity|]).
  - apply behind_le; auto. apply (lt_le N pos PO); auto.
  - split; [rewrite EW; now apply nb_drop|]. intros Hw.
    destruct (le_or_lt N (ninf N) d) as [Hd|]; auto. exfalso.
    assert (d = ninf N) by (apply (c_antisym _ _ _ CL); auto; apply (c_le_inf _ _ _ CL); auto). subst d.
    rewrite (c_idtw_inf _ _ _ CL) in H by auto. apply (lt_not_le N _ _ H). now apply (c_le_inf _ _ _ CL).
Qed.
Lemma casc_qc L c d : 2 <= L <= set_len s -> valid L c -> pos d ->
  exists w, cascadeDistance N ratio qv (vals L c) d = Ok w /\ casc_ok L c d w.
Proof.
  intros HL Hv Pd. pose proof (vlen L c HL Hv) as E. destruct (W_cost L c HL Hv) as (C & HC & PC & _ & EW).
  destruct (cascade_spec N dat pos CL ratio qv (vals L c) (bw (Z.max (zlen qv) L))) with (d := d) (C := C) as (w & Ew & Hw);
    rewrite ?E; auto using vdat; try (unfold klen); try lia.
  - apply Hbw. lia.
  - apply Hbw0. lia.
  - exists w. split; auto. rewrite E in Hw. rewrite <- EW in Hw. eapply casc_of; eauto.
Qed.
Lemma casc_cq L c d : 2 <= L <= set_len s -> valid L c -> pos d ->
  exists w, cascadeDistance N ratio (vals L c) qv d = Ok w /\ casc_ok L c d w.
Proof.
  intros HL Hv Pd. pose proof (vlen L c HL Hv) as E. destruct (W_cost L c HL Hv) as (C & HC & PC & _ & EW).
  destruct (cascade_spec N dat pos CL ratio (vals L c) qv (bw (Z.max (zlen qv) L))) with (d := d) (C := C) as (w & Ew & Hw);
    rewrite ?E; rewrite ?(Z.max_comm L); auto using vdat; try (unfold klen); try lia.
  - apply Hbw. lia.
  - apply Hbw0. lia.
  - apply (no_overflow_swap N dat pos CL); auto using vdat.
  - apply (dtw_cost_swap N dat pos CL); auto using vdat.
  - exists w. split; auto. rewrite E in Hw. rewrite (Z.max_comm L) in Hw. rewrite <- EW in Hw. eapply casc_of; eauto.
Qed.

(** The query during the search. *)
Definition q_ok (q : ts N) : Prop := same_ts N q0 q /\ cache_ok N h q.
Lemma q_read q : q_ok q -> ts_read N h q = Ok qv /\ ts_len q = zlen qv.
Proof.
  intros (S & _). rewrite <- (same_read N h _ _ S). split; auto. destruct S as (_ & _ & _ & _ & <-). auto.
Qed.

(** ** Equal lengths always have a path. *)
Lemma diag_path r : 0 <= r -> forall n, exists p, warp_path r (Z.of_nat n) (Z.of_nat n) p.
Proof.
  intros Hr. induction n as [|n (p & Hp)].
  - exists [(0, 0)]. constructor.
  - exists (p ++ [(Z.of_nat (S n), Z.of_nat (S n))]). econstructor; [exact Hp| |lia]. unfold warp_step. lia.
Qed.
Lemma W_equal_fin c : valid (zlen qv) c -> lt (W (zlen qv) c) (ninf N).
Proof.
  intros Hv. set (L := zlen qv) in *. pose proof (vlen L c Hqlen Hv) as E.
  destruct (W_cost L c Hqlen Hv) as (C & HC & PC & _ & ->). unfold L. rewrite Z.max_id. fold L. fold L in HC. rewrite Z.max_id in HC.
  apply (c_ndtw_fin _ _ _ CL); auto; [unfold klen, L; lia|].
  assert (Hr : 0 <= bw L) by (apply Hbw0; unfold L; lia).
  pose proof (Hov L c Hqlen Hv) as HO. fold L in HO. rewrite Z.max_id in HO.
  destruct HC as [((p & Hp & <-) & _)|(Hno & _)].
  - apply (HO _ _ p) in Hp; auto; lia.
  - exfalso. destruct (diag_path (bw L) Hr (Z.to_nat (L - 1))) as (p & Hp). apply (Hno p).
    rewrite E. replace (zlen qv - 1) with (Z.of_nat (Z.to_nat (L - 1))) by (unfold L; lia).
    replace (L - 1) with (Z.of_nat (Z.to_nat (L - 1))) at 2 by (unfold L; lia). exact Hp.
Qed.

(** ** The best group of one length. *)
Section OneLength.
Context (L : Z).
Hypothesis HL : 2 <= L <= set_len s.
Local Notation ls_ok := (ls_ok N h s b L).

(** Replacing a representative by the same series with another valid cache. *)
Lemma ls_ok_set ls gm i g c groups : ls_ok ls gm -> zget (ls_groups N ls) i = Ok g ->
  same_ts N (g_centroid N g) c -> cache_ok N h c ->
  zset (ls_groups N ls) i (set_centroid_ts N g c) = Ok groups ->
  ls_ok (mkLS N (ls_length N ls) (ls_sub N ls) groups (ls_map N ls)) gm.
Proof.
  intros (H1 & H2 & H3 & H4 & H5 & H6 & H7) Hg Sc Cc E. unfold GroupProofs.ls_ok. cbn [ls_length ls_sub ls_groups ls_map].
  split; auto. split; auto. split; auto. split; [now rewrite (zset_len _ _ _ _ E)|]. split; [|auto].
  intros j g' ms Hj Hms. destruct (Z.eq_dec i j) as [<-|Hn].
  - rewrite (zget_zset_eq _ _ _ _ E) in Hj. injection Hj as <-.
    destruct (H5 _ _ _ Hg Hms) as (A1 & A2 & A3 & A4 & A5 & A6 & A7 & A8 & A9).
    unfold grp_ok, set_centroid_ts. cbn [g_index g_length g_sub g_count g_last g_centroid].
    do 6 (split; [assumption|]). split; auto. eapply same_trans; [apply same_sym; exact Sc|exact A7].
  - rewrite (zget_zset_neq _ _ _ _ _ E) in Hj by auto. eauto.
Qed.

Record best_inv (gm : list (list coord)) (ls0 : lspace N) (drop : T) (j : Z) (st : bg_state N) : Prop := {
  bi_ls : let '(groups, _, _, _) := st in ls_ok (mkLS N (ls_length N ls0) (ls_sub N ls0) groups (ls_map N ls0)) gm;
  bi_q : let '(_, q, _, _) := st in q_ok q;
  bi_pos : let '(_, _, d, _) := st in pos d /\ le d drop;
  bi_best : let '(_, _, d, o) := st in match o with
    | None => d = drop
    | Some i => 0 <= i < j /\ d = W L (rep gm i) /\ lt d drop
    end;
  bi_all : let '(_, _, d, _) := st in forall k, 0 <= k < j -> behind d (W L (rep gm k))
}.

Lemma getBestGroup_spec ls gm q drop : ls_ok ls gm -> q_ok q -> pos drop ->
  Post (getBestGroup N h ratio ls q drop) (fun r => let '(ls', q', o, d) := r in
    ls_ok ls' gm /\ q_ok q' /\ pos d /\ le d drop /\
    match o with
    | None => d = drop
    | Some i => 0 <= i < zlen gm /\ d = W L (rep gm i) /\ lt d drop
    end /\ forall k, 0 <= k < zlen gm -> behind d (W L (rep gm k))).
Proof.
  intros Hls Hqo Pd. unfold getBestGroup.
  assert (E : zlen (ls_groups N ls) = zlen gm) by apply Hls. rewrite E.
  eapply Post_seq; [apply (for_rule_le (best_inv gm ls drop)); [apply zlen_nonneg| |]|].
  - split; [destruct ls; exact Hls|exact Hqo|split; [auto|apply (le_refl N pos PO); auto]|reflexivity|intros k Hk; lia].
  - intros j (((groups & q1) & d) & o) Hj [I1 I2 I3 I4 I5]. destruct I3 as (Pd1 & Ld). unfold best_group_step.
    destruct (zget_Ok gm j Hj) as (ms & Ems). destruct (ls_get N h s b L _ _ _ _ I1 Ems) as (g & Eg & G). cbn [ls_groups ls_map] in *.
    destruct (rep_valid N h s b L _ _ _ I1 Hj) as (Vr & _).
    rewrite Eg. cbn [bind]. destruct G as (_ & _ & _ & _ & _ & _ & Sc & Cc & _).
    assert (Er : rep gm j = hd (0, 0) ms) by (unfold rep; now rewrite Ems). rewrite <- Er in Sc.
    destruct (q_read q1 I2) as (Rq & Lq).
    assert (Rc : ts_read N h (g_centroid N g) = Ok (vals L (rep gm j))).
    { rewrite (same_read N h _ _ Sc). apply read_view; auto. lia. }
    destruct (casc_cq L (rep gm j) d HL Vr Pd1) as (w & Ew & Pw & Hw).
    destruct (cascade_ts_eq N h ratio (g_centroid N g) q1 d _ _ w Cc (proj2 I2) Rc Rq)
      as (c' & q' & Ec & S1 & C1 & S2 & C2); auto.
    { destruct Sc as (_ & _ & _ & _ & ->). cbn. lia. }
    { lia. }
    rewrite Ec. cbn [bind]. destruct (zset_ex groups j (set_centroid_ts N g c')) as (groups' & Eg').
    { apply zget_inv in Eg. lia. }
    rewrite Eg'. cbn [bind].
    assert (J1 : ls_ok (mkLS N (ls_length N ls) (ls_sub N ls) groups' (ls_map N ls)) gm).
    { apply (ls_ok_set _ _ _ _ _ _ I1 Eg S1 C1 Eg'). }
    assert (J2 : q_ok q') by (split; [eapply same_trans; [apply I2|exact S2]|exact C2]).
    pose proof (W_pos L _ HL Vr) as PW.
    destruct (nltb N w d) eqn:Elt; apply Post_Ok.
    + assert (E' : w = W L (rep gm j)).
      { destruct Hw as [|(-> & _)]; auto. exfalso. apply (lt_not_le N _ _ Elt). now apply (c_le_inf _ _ _ CL). }
      subst w. split; [exact J1|exact J2| | |].
      * split; auto. apply (ord_trans _ _ PO) with d; auto. apply (lt_le N pos PO); auto.
      * split; [lia|]. split; auto. apply (lt_le_trans N pos PO) with d; auto.
      * intros k Hk. destruct (Z.eq_dec k j) as [->|].
        -- apply behind_le; auto. apply (le_refl N pos PO); auto.
        -- destruct (rep_valid N h s b L _ _ k I1) as (Vk & _); [lia|].
           apply (behind_down d); auto; [apply W_pos; auto|apply (lt_le N pos PO); auto|apply I5; lia].
    + split; [exact J1|exact J2|split; auto| |].
      * destruct o as [i|]; auto. destruct I4 as (? & ? & ?). split; [lia|auto].
      * intros k Hk. destruct (Z.eq_dec k j) as [->|]; [|apply I5; lia].
        destruct Hw as [->|(_ & Hb)]; auto. apply behind_le; auto.
  - intros (((groups & q1) & d) & o) [I1 I2 (I3 & I3') I4 I5]. apply Post_Ok. auto 10.
Qed.

(** ** The best member of one group. *)
Lemma group_match_spec ls gm gi ms g q : ls_ok ls gm -> zget gm gi = Ok ms -> zget (ls_groups N ls) gi = Ok g -> q_ok q ->
  lt (W L (rep gm gi)) (ninf N) ->
  exists c, In c ms /\ group_getBestMatch N h ratio s (ls_map N ls) g q = Ok (mkCand (view N s b L c) (W L c)) /\
    lt (W L c) (ninf N) /\ forall c', In c' ms -> behind (W L c) (W L c').
Proof.
  intros H Hms Hg Hqo Hfin. pose proof (c_pos_inf _ _ _ CL) as PI.
  pose proof (proj1 (proj2 (proj2 (proj2 (proj2 H)))) _ _ _ Hg Hms) as G.
  destruct G as (G1 & G2 & G3 & G4 & G5 & G6 & _).
  unfold group_getBestMatch. set (w := while_ _ _ _ _).
  set (fr := fun st : match_state N => let '(_, d, m, q) := st in
     q_ok q /\ pos d /\ (d = ninf N \/ (In m ms /\ d = W L m /\ lt d (ninf N)))).
  assert (P : Post w (fun st => fr st /\ let '(_, d, _, _) := st in forall c, In c ms -> behind d (W L c))).
  { unfold w. eapply Post_conseq; [eapply (walk_members N h s b Hlen L ltac:(lia) ls gm gi ms _ _ (fun st : match_state N => let '(c, _, _, _) := st in c)
      (fun rem st => fr st /\ exists r2, ms = rem ++ r2 /\ let '(_, d, _, _) := st in forall c, In c r2 -> behind d (W L c))); eauto|].
    - split; [cbn; auto|]. exists []. rewrite app_nil_r. split; auto. intros c [].
    - intros (((? & ?) & ?) & ?). reflexivity.
    - intros rem c (((cur & d) & m) & q1) (r3 & Em) (Hfr & r2 & Er & Hall) Ecur Vc Hp. cbn in Ecur. subst cur.
      destruct Hfr as (Hq1 & Pd & Hd). unfold group_match_body. rewrite G2, G3.
      pose proof (get_view N s b Hbuf L ltac:(lia) c Vc) as Gv. rewrite Gv. cbn [bind].
      destruct (q_read q1 Hq1) as (Rq & Lq).
      assert (Rc : ts_read N h (view N s b L c) = Ok (vals L c)) by (apply read_view; auto; lia).
      destruct (casc_qc L c d HL Vc Pd) as (x & Ex & Px & Hx).
      destruct (cascade_ts_eq N h ratio q1 (view N s b L c) d _ _ x (proj2 Hq1) (cache_None N h (view N s b L c) eq_refl) Rq Rc)
        as (q' & t' & Ec & S1 & C1 & S2 & C2); auto; [lia|cbn; lia|].
      rewrite Ec. cbn [bind].
      assert (J2 : q_ok q') by (split; [eapply same_trans; [apply Hq1|exact S1]|exact C1]).
      pose proof (W_pos L _ HL Vc) as PW.
      assert (Hc : In c ms) by (rewrite Em; apply in_or_app; left; apply in_or_app; right; now left).
      assert (Er' : ms = rem ++ c :: r2) by (rewrite Er, <- app_assoc; reflexivity).
      assert (Hval : forall c', In c' ms -> valid L c') by (eapply ls_members_valid; eauto).
      destruct (nltb N x d) eqn:Elt; cbn [bind]; rewrite Hp; cbn [bind]; apply Post_Ok.
      + assert (E' : x = W L c).
        { destruct Hx as [|(-> & _)]; auto. exfalso. apply (lt_not_le N _ _ Elt). now apply (c_le_inf _ _ _ CL). }
        subst x. split; auto. split.
        * split; auto. split; auto. right. split; auto. split; auto.
          apply (lt_le_trans N pos PO) with d; auto. now apply (c_le_inf _ _ _ CL).
        * exists (c :: r2). split; auto. intros c' [<-|Hc'].
          -- apply behind_le; auto. apply (le_refl N pos PO); auto.
          -- apply (behind_down d); auto; [apply W_pos; auto; apply Hval; rewrite Er'; apply in_or_app; right; now right|].
             apply (lt_le N pos PO); auto.
      + split; auto. split; [split; auto|]. exists (c :: r2). split; auto. intros c' [<-|Hc']; auto.
        destruct Hx as [->|(_ & Hb)]; auto. apply behind_le; auto.
    - intros (((cur & d) & m) & q1) (Hfr & r2 & Er & Hall). split; auto. cbn in Er. now subst r2. }
  destruct (Post_inv _ _ P) as ((((cur & d) & m) & q1) & -> & (Hq1 & Pd & Hd) & Hall). cbn [bind].
  assert (Erep : rep gm gi = hd (0, 0) ms) by (unfold rep; now rewrite Hms).
  assert (Hl : lt d (ninf N)). { apply (proj2 (Hall (rep gm gi) ltac:(rewrite Erep; now apply hd_in))); auto. }
  destruct Hd as [->|(Hm & -> & _)]; [exfalso; apply (lt_not_le N _ _ Hl); now apply (c_le_inf _ _ _ CL)|].
  assert (Vm : valid L m) by (eapply ls_members_valid; eauto).
  exists m. split; auto. rewrite G2.
  pose proof (get_view N s b Hbuf L ltac:(lia) m Vm) as Gv. rewrite Gv. cbn [bind]. auto.
Qed.
End OneLength.

(** ** All lengths. *)
(** The groups of every length have the members [gmf L]. *)
Definition spaces_ok (gmf : Z -> list (list coord)) (spaces : list (option (lspace N))) : Prop :=
  zlen spaces = set_len s + 1 /\
  (forall L, 2 <= L <= set_len s -> exists ls, zget spaces L = Ok (Some ls) /\ ls_ok N h s b L ls (gmf L)).
Definition same_low (sp sp' : list (option (lspace N))) : Prop := forall L, L < 2 -> zget sp' L = zget sp L.

Definition gm_inv (gmf : Z -> list (list coord)) (sp0 : list (option (lspace N))) (done : list Z) (st : gm_state N) : Prop :=
  let '(sp, q, d, o) := st in
  spaces_ok gmf sp /\ same_low sp0 sp /\ q_ok q /\ pos d /\
  match o with
  | None => d = ninf N
  | Some (l, i) => 2 <= l <= set_len s /\ 0 <= i < zlen (gmf l) /\ d = W l (rep (gmf l) i) /\ lt d (ninf N)
  end /\
  forall l k, In l done -> 0 <= k < zlen (gmf l) -> behind d (W l (rep (gmf l) k)).

Lemma match_loop gmf sp order : spaces_ok gmf sp -> q_ok q0 ->
  (forall l, In l order -> 2 <= l <= set_len s) ->
  Post (for_each order (global_match_step N h ratio) (sp, q0, ninf N, None)) (gm_inv gmf sp order).
Proof.
  intros Hsp Hq0 Hord. pose proof (c_pos_inf _ _ _ CL) as PI.
  apply (for_each_rule (gm_inv gmf sp) _ order []).
  - split; auto. split; [intros L HL; reflexivity|]. split; auto. split; auto. split; auto. intros l k [].
  - cbn [app]. intros pre l post (((sp1 & q1) & d) & o) El (I1 & I2 & I3 & I4 & I5 & I6).
    assert (Hl : 2 <= l <= set_len s) by (apply Hord; rewrite El; apply in_or_app; right; now left).
    unfold global_match_step. destruct (proj2 I1 l Hl) as (ls & Els & Hls). rewrite Els. cbn [bind].
    eapply Post_seq; [apply (getBestGroup_spec l Hl ls (gmf l) q1 d Hls I3 I4)|].
    intros (((ls' & q') & gi) & d') (J1 & J2 & J3 & J4 & J5 & J6).
    destruct (zset_ex sp1 l (Some ls')) as (sp2 & Es); [destruct I1 as (-> & _); lia|]. rewrite Es. cbn [bind].
    assert (K1 : spaces_ok gmf sp2).
    { split; [rewrite (zset_len _ _ _ _ Es); apply I1|]. intros l' Hl'. destruct (Z.eq_dec l l') as [<-|Hn].
      - rewrite (zget_zset_eq _ _ _ _ Es). eauto.
      - rewrite (zget_zset_neq _ _ _ _ _ Es) by auto. now apply I1. }
    assert (K2 : same_low sp sp2).
    { intros l' Hl'. rewrite (zget_zset_neq _ _ _ _ _ Es) by lia. now apply I2. }
    assert (Hval : forall l k, 2 <= l <= set_len s -> 0 <= k < zlen (gmf l) -> pos (W l (rep (gmf l) k))).
    { intros l' k Hl' Hk. apply W_pos; auto. destruct (proj2 I1 l' Hl') as (ls2 & _ & H2). eapply rep_valid; eauto. }
    assert (Hpre : forall l', In l' pre -> 2 <= l' <= set_len s) by (intros l' H'; apply Hord; rewrite El; apply in_or_app; now left).
    destruct (nltb N d' d) eqn:Elt; apply Post_Ok.
    + unfold gm_inv. do 4 (split; [assumption|]). split.
      * destruct gi as [i|]; [|subst d'; exfalso; apply (lt_not_le N _ _ Elt); apply (le_refl N pos PO); auto].
        destruct J5 as (? & ? & ?). split; auto. split; auto. split; auto.
        apply (lt_le_trans N pos PO) with d; auto. now apply (c_le_inf _ _ _ CL).
      * intros l' k Hin Hk. apply in_app_iff in Hin as [Hin|[<-|[]]]; [|auto].
        apply (behind_down d); auto.
    + unfold gm_inv. do 4 (split; [assumption|]). split; [exact I5|].
      intros l' k Hin Hk. apply in_app_iff in Hin as [Hin|[<-|[]]]; [auto|].
      replace d with d'; auto. apply (c_antisym _ _ _ CL); auto.
Qed.

(** What a match finds. *)
Definition found (gmf : Z -> list (list coord)) (L : Z) (gi : Z) (ms : list coord) (c : coord) : Prop :=
  2 <= L <= set_len s /\ zget (gmf L) gi = Ok ms /\ In c ms /\ valid L c /\ lt (W L c) (ninf N) /\
  lt (W L (hd (0, 0) ms)) (ninf N) /\
  (forall c', In c' ms -> behind (W L c) (W L c')) /\
  (forall L' ms', 2 <= L' <= set_len s ->
     (L' = zlen qv \/ Z.abs (L' - zlen qv) <= bw (Z.max L' (zlen qv)) /\
       (forall k, 1 <= k -> k + 1 <= set_len s -> bw (k + 1) <= bw k + 1)) ->
     In ms' (gmf L') -> behind (W L (hd (0, 0) ms)) (W L' (hd (0, 0) ms'))).

Theorem match_spec gmf gs : spaces_ok gmf (gs_spaces N gs) -> q_ok q0 -> gmf (zlen qv) <> [] ->
  exists sp L gi ms c,
    global_getBestMatch N h ratio s gs q0 =
      Ok (mkGS N sp (gs_name N gs) (gs_kind N gs), mkCand (view N s b L c) (W L c)) /\
    spaces_ok gmf sp /\ same_low (gs_spaces N gs) sp /\ found gmf L gi ms c.
Proof.
  intros Hsp Hq0 Hne. unfold global_getBestMatch. rewrite Hql. destruct (Z.leb_spec (zlen qv) 1); [lia|].
  replace (zlen (gs_spaces N gs) - 1) with (set_len s) by (destruct Hsp as (-> & _); lia).
  assert (B : forall k, 1 <= k <= Z.max (zlen qv) (set_len s) -> calculateWarpingBandSize N ratio k = Ok (bw k))
    by (intros k Hk; apply Hbw; lia).
  destruct (traverse_inv N ratio (zlen qv) (set_len s) bw ltac:(lia) B) as (order & E & _).
  destruct (traverse_sound N ratio (zlen qv) (set_len s) bw ltac:(lia) B order E) as (H1 & _ & H3 & _).
  assert (Hord : forall l, In l order -> 2 <= l <= set_len s).
  { intros l Hl. destruct (H3 l Hl) as [->|(? & _)]; lia. }
  rewrite E. cbn [bind].
  destruct (Post_inv _ _ (match_loop gmf (gs_spaces N gs) order Hsp Hq0 Hord)) as ((((sp & q1) & d) & o) & Em & I1 & I2 & I3 & I4 & I5 & I6).
  rewrite Em. cbn [bind].
  assert (Hhd : In (zlen qv) order) by (destruct order; [discriminate|injection H1 as ->; now left]).
  assert (Hd : lt d (ninf N)).
  { destruct (gmf (zlen qv)) as [|ms0 gm0] eqn:Eg; [congruence|].
    assert (Hk : 0 <= 0 < zlen (gmf (zlen qv))) by (rewrite Eg; unfold zlen; cbn; lia).
    apply (proj2 (I6 _ 0 Hhd Hk)). apply W_equal_fin.
    destruct (proj2 I1 (zlen qv) Hqlen) as (ls2 & _ & H2). eapply rep_valid; eauto. }
  destruct o as [(L & gi)|]; [|subst d; exfalso; apply (lt_not_le N _ _ Hd); apply (le_refl N pos PO); auto].
  destruct I5 as (HL & Hgi & -> & _). destruct (proj2 I1 L HL) as (ls & Els & Hls). rewrite Els. cbn [bind].
  destruct (zget_Ok (gmf L) gi Hgi) as (ms & Ems). destruct (ls_get N h s b L _ _ _ _ Hls Ems) as (g & Eg & _).
  rewrite Eg. cbn [bind].
  assert (Er : rep (gmf L) gi = hd (0, 0) ms) by (unfold rep; now rewrite Ems).
  destruct (group_match_spec L HL ls (gmf L) gi ms g q1 Hls Ems Eg I3 Hd) as (c & Hc & Ec & Hfin & Hall).
  rewrite Ec. cbn [bind]. exists sp, L, gi, ms, c. split; auto. split; auto. split; auto.
  unfold found. rewrite <- Er. do 3 (split; [assumption|]). split; [eapply ls_members_valid; eauto|].
  do 3 (split; [assumption|]). intros L' ms' HL' Hor Hin. apply in_zget in Hin as (k & Hk & Ek).
  replace (hd (0, 0) ms') with (rep (gmf L') k) by (unfold rep; now rewrite Ek).
  apply I6; auto. destruct Hor as [->|(Hor & Hgap)]; auto.
  apply (traverse_complete N ratio (zlen qv) (set_len s) bw ltac:(lia) B) with (order := order); auto.
  intros k' Hk1 Hk2. apply Hgap; lia.
Qed.

(** Lengths outside the band have no finite distance. *)
Lemma W_far L c : 2 <= L <= set_len s -> valid L c -> bw (Z.max (zlen qv) L) < Z.abs (L - zlen qv) -> W L c = ninf N.
Proof.
  intros HL Hv Hb. destruct (W_cost L c HL Hv) as (C & HC & _ & _ & ->).
  destruct HC as [((p & Hp & _) & _)|(_ & ->)].
  - exfalso. apply path_range in Hp as (_ & _ & Hp); [|apply Hbw0; lia]. rewrite vlen in Hp by auto. lia.
  - apply (c_ndtw_inf _ _ _ CL). unfold klen. lia.
Qed.
End Match.
