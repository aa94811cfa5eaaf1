(** * Matching against groups whose representatives are any series of the right length, for instance groups loaded
    from a file.  The search of MatchProofs.v, with representatives that need not be subsequences of the dataset. *)
From Coq Require Import ZArith Bool Lia String Sorted Permutation List.
From Verif Require Import Outcome Num Lemire Distance TimeSeries Text Dataset Groups Laws Spec DtwProofs KeoghProofs SafeDist TraverseProofs.
From Verif Require Import TsProofs GroupProofs MatchProofs.
Import ListNotations.
Open Scope Z_scope.

Lemma zget_map {A B} (f : A -> B) l i x : zget l i = Ok x -> zget (map f l) i = Ok (f x).
Proof.
  intros H. apply zget_inv in H as (R & H). unfold zget. destruct (Z.ltb_spec i 0); [lia|].
  now rewrite (map_nth_error f _ _ H).
Qed.

Definition warp_exists (r i j : Z) : Prop := exists p, warp_path r i j p.

Section RepMatch.
Context (N : NumOps) (dat pos : num N -> Prop) (CL : CostLaws N dat pos).
Local Notation T := (num N).
Local Notation lt := (Laws.lt N).
Local Notation le := (Laws.le N).
Let PO := c_pos_ord _ _ _ CL.
Context (nb : T -> T -> Prop).
Hypothesis nb_le : forall d w, pos d -> pos w -> le d w -> nb d w.
Hypothesis nb_drop : forall d C k, klen k -> pos d -> pos C -> lt (euc_inorm_dtw N d k) C -> nb d (euc_norm_dtw N C k).
Hypothesis nb_down : forall d d' w, pos d -> pos d' -> pos w -> le d' d -> nb d w -> nb d' w.
Local Notation behind := (behind N nb).
Let behind_le := behind_le N dat pos CL nb nb_le.
Let behind_down := behind_down N dat pos CL nb nb_down.

Context (h : heap N) (s : tset) (b : nat) (data : list T).
Hypothesis Hbuf : set_buf s = Some b.
Hypothesis Hheap : heap_get N h b = Ok data.
Hypothesis Hlen : set_len s <= 2 ^ 30.
Hypothesis Hcnt : 1 <= set_count s.
Hypothesis Hsize : set_count s * set_len s <= zlen data.
Context (q0 : ts N) (qv : list T).
Hypothesis Hq : ts_read N h q0 = Ok qv.
Hypothesis Hql : ts_len q0 = zlen qv.
Hypothesis Hqdat : Forall dat qv.
Hypothesis Hqlen : 2 <= zlen qv <= set_len s.
Context (ratio : T) (bw : Z -> Z).
Hypothesis Hbw : forall k, 1 <= k <= set_len s -> calculateWarpingBandSize N ratio k = Ok (bw k).
Hypothesis Hbw0 : forall k, 1 <= k <= set_len s -> 0 <= bw k.
Local Notation valid := (valid s).
Local Notation vals := (vals N s data).

(** A series of length [L] to compare with. *)
Definition okv (L : Z) (v : list T) : Prop := zlen v = L /\ Forall dat v /\ no_overflow N qv v (bw (Z.max (zlen qv) L)).
(** Distance between the query and a series. *)
Definition D (v : list T) : T := match warpedDistance N ratio qv v (ninf N) with Ok w => w | _ => ninf N end.

Lemma D_cost L v : 2 <= L <= set_len s -> okv L v ->
  exists C, dtw_cost N qv v (bw (Z.max (zlen qv) L)) C /\ pos C /\
    warpedDistance N ratio qv v (ninf N) = Ok (D v) /\ D v = euc_norm_dtw N C (Z.max (zlen qv) L).
Proof.
  intros HL (E & Hv & HO).
  destruct (wd_inf N dat pos CL ratio qv v (bw (Z.max (zlen qv) L))) as (C & HC & Ew); rewrite ?E; auto; try (unfold klen); try lia.
  - apply Hbw. lia.
  - apply Hbw0. lia.
  - exists C. split; auto. split.
    + apply (dtw_cost_pos N dat pos CL qv v (bw (Z.max (zlen qv) L))); auto; apply Hbw0; lia.
    + unfold D. rewrite Ew, E. auto.
Qed.
Lemma D_pos L v : 2 <= L <= set_len s -> okv L v -> pos (D v).
Proof.
  intros HL Hv. destruct (D_cost L v HL Hv) as (C & _ & PC & _ & ->). apply (c_ndtw_pos _ _ _ CL); auto. unfold klen. lia.
Qed.
Definition dcasc (v : list T) (d w : T) : Prop := pos w /\ (w = D v \/ (w = ninf N /\ behind d (D v))).
Lemma dcasc_of L v d C w : 2 <= L <= set_len s -> okv L v -> pos d -> pos C -> D v = euc_norm_dtw N C (Z.max (zlen qv) L) ->
  ((w = ninf N /\ lt d (D v)) \/ w = D v \/ (w = ninf N /\ lt (euc_inorm_dtw N d (Z.max (zlen qv) L)) C)) -> dcasc v d w.
Proof.
  intros HL Hv Pd PC EW H. pose proof (D_pos L v HL Hv) as PW. pose proof (c_pos_inf _ _ _ CL) as PI.
  assert (K : klen (Z.max (zlen qv) L)) by (unfold klen; lia).
  destruct H as [(-> & H)|[->|(-> & H)]]; (split; [auto|]); auto; right; (split; [reflexivity|]).
  - apply behind_le; auto. apply (lt_le N pos PO); auto.
  - split; [rewrite EW; now apply nb_drop|]. intros Hw.
    destruct (le_or_lt N (ninf N) d) as [Hd|]; auto. exfalso.
    assert (d = ninf N) by (apply (c_antisym _ _ _ CL); auto; apply (c_le_inf _ _ _ CL); auto). subst d.
    rewrite (c_idtw_inf _ _ _ CL) in H by auto. apply (lt_not_le N _ _ H). now apply (c_le_inf _ _ _ CL).
Qed.
Lemma dcasc_qv L v d : 2 <= L <= set_len s -> okv L v -> pos d -> exists w, cascadeDistance N ratio qv v d = Ok w /\ dcasc v d w.
Proof.
  intros HL Hv Pd. pose proof Hv as (E & Hd & HO). destruct (D_cost L v HL Hv) as (C & HC & PC & _ & EW).
  destruct (cascade_spec N dat pos CL ratio qv v (bw (Z.max (zlen qv) L))) with (d := d) (C := C) as (w & Ew & Hw);
    rewrite ?E; auto; try (unfold klen); try lia.
  - apply Hbw. lia.
  - apply Hbw0. lia.
  - exists w. split; auto. rewrite E in Hw. rewrite <- EW in Hw. eapply dcasc_of; eauto.
Qed.
Lemma dcasc_vq L v d : 2 <= L <= set_len s -> okv L v -> pos d -> exists w, cascadeDistance N ratio v qv d = Ok w /\ dcasc v d w.
Proof.
  intros HL Hv Pd. pose proof Hv as (E & Hd & HO). destruct (D_cost L v HL Hv) as (C & HC & PC & _ & EW).
  destruct (cascade_spec N dat pos CL ratio v qv (bw (Z.max (zlen qv) L))) with (d := d) (C := C) as (w & Ew & Hw);
    rewrite ?E; rewrite ?(Z.max_comm L); auto; try (unfold klen); try lia.
  - apply Hbw. lia.
  - apply Hbw0. lia.
  - apply (no_overflow_swap N dat pos CL); auto.
  - apply (dtw_cost_swap N dat pos CL); auto.
  - exists w. split; auto. rewrite E in Hw. rewrite (Z.max_comm L) in Hw. rewrite <- EW in Hw. eapply dcasc_of; eauto.
Qed.

Local Notation q_ok := (q_ok N h q0).
Lemma q_read' q : q_ok q -> ts_read N h q = Ok qv /\ ts_len q = zlen qv.
Proof. intros (S & _). rewrite <- (same_read N h _ _ S). split; auto. destruct S as (_ & _ & _ & _ & <-). auto. Qed.

(** A finite distance needs a path, and then every series of that length has a finite distance. *)
Lemma D_path L v : 2 <= L <= set_len s -> okv L v -> (exists p, warp_path (bw (Z.max (zlen qv) L)) (zlen qv - 1) (L - 1) p) <-> lt (D v) (ninf N).
Proof.
  intros HL Hv. pose proof Hv as (E & Hd & HO). destruct (D_cost L v HL Hv) as (C & HC & PC & _ & ->).
  assert (K : klen (Z.max (zlen qv) L)) by (unfold klen; lia). unfold dtw_cost in HC. rewrite E in HC. split.
  - intros (p & Hp). apply (c_ndtw_fin _ _ _ CL); auto. destruct HC as [((p' & Hp' & <-) & _)|(Hno & _)].
    + apply (HO _ _ p') in Hp'; auto; lia.
    + exfalso. exact (Hno p Hp).
  - intros Hf. destruct HC as [((p' & Hp' & _) & _)|(_ & ->)]; [eauto|]. exfalso.
    rewrite (c_ndtw_inf _ _ _ CL) in Hf by auto. apply (lt_not_le N _ _ Hf). apply (le_refl N pos PO). apply (c_pos_inf _ _ _ CL).
Qed.
Lemma D_fin L v v' : 2 <= L <= set_len s -> okv L v -> okv L v' -> lt (D v) (ninf N) -> lt (D v') (ninf N).
Proof. intros HL H H' Hf. apply (D_path L v' HL H'). now apply (D_path L v HL H). Qed.
(** Two lengths that differ by at most the band have a path. *)
Lemma stair r i j k : warp_exists r i j -> 0 <= k -> (forall m, 1 <= m <= k -> Z.abs (i + m - j) <= r) -> warp_exists r (i + k) j.
Proof.
  intros H Hk. revert H. pattern k. apply natlike_ind; auto; [intros; now rewrite Z.add_0_r|].
  intros x Hx IH H Hm. destruct (IH H) as (p & Hp); [intros; apply Hm; lia|]. exists (p ++ [(i + Z.succ x, j)]).
  econstructor; [exact Hp|unfold warp_step; lia|]. apply Hm. lia.
Qed.
Lemma stair' r i j k : warp_exists r i j -> 0 <= k -> (forall m, 1 <= m <= k -> Z.abs (i - (j + m)) <= r) -> warp_exists r i (j + k).
Proof.
  intros H Hk. revert H. pattern k. apply natlike_ind; auto; [intros; now rewrite Z.add_0_r|].
  intros x Hx IH H Hm. destruct (IH H) as (p & Hp); [intros; apply Hm; lia|]. exists (p ++ [(i, j + Z.succ x)]).
  econstructor; [exact Hp|unfold warp_step; lia|]. apply Hm. lia.
Qed.
Lemma band_path r i j : 0 <= r -> 0 <= i -> 0 <= j -> Z.abs (i - j) <= r -> warp_exists r i j.
Proof.
  intros Hr Hi Hj Ha. destruct (diag_path r Hr (Z.to_nat (Z.min i j))) as (p & Hp). rewrite Z2Nat.id in Hp by lia.
  assert (W : warp_exists r (Z.min i j) (Z.min i j)) by (now exists p). destruct (Z.le_ge_cases i j).
  - rewrite Z.min_l in W by lia. replace j with (i + (j - i)) by lia. apply stair'; auto; lia.
  - rewrite Z.min_r in W by lia. replace i with (j + (i - j)) by lia. apply stair; auto; lia.
Qed.
Lemma D_near L v : 2 <= L <= set_len s -> okv L v -> Z.abs (L - zlen qv) <= bw (Z.max (zlen qv) L) -> lt (D v) (ninf N).
Proof. intros HL Hv Hn. apply (D_path L v HL Hv). apply band_path; try lia. Qed.
Lemma D_far L v : 2 <= L <= set_len s -> okv L v -> bw (Z.max (zlen qv) L) < Z.abs (L - zlen qv) -> D v = ninf N.
Proof.
  intros HL Hv Hb. destruct (D_cost L v HL Hv) as (C & HC & _ & _ & ->). destruct Hv as (E & _).
  destruct HC as [((p & Hp & _) & _)|(_ & ->)].
  - exfalso. apply path_range in Hp as (_ & _ & Hp); [|apply Hbw0; lia]. rewrite E in Hp. lia.
  - apply (c_ndtw_inf _ _ _ CL). unfold klen. lia.
Qed.

(** Groups of one length: the representative's values and the members in the order of insertion. *)
Section OneLength.
Context (L : Z).
Hypothesis HL : 2 <= L <= set_len s.
Local Notation links := (links N s L).

Definition here (t : ts N) : Prop := match ts_src t with View b' _ => b' = b | _ => True end.
Definition rep_is (g : group N) (v : list T) : Prop :=
  ts_read N h (g_centroid N g) = Ok v /\ ts_len (g_centroid N g) = L /\ cache_ok N h (g_centroid N g) /\ here (g_centroid N g).
Definition lists (ls : lspace N) (gl : list (list T * list coord)) : Prop :=
  links ls (map snd gl) /\ forall i g v cs, zget (ls_groups N ls) i = Ok g -> zget gl i = Ok (v, cs) -> rep_is g v.
(** What is compared with the query. *)
Definition comparable (gl : list (list T * list coord)) : Prop :=
  forall v cs, In (v, cs) gl -> okv L v /\ forall c, In c cs -> okv L (vals L c).

Lemma lists_len ls gl : lists ls gl -> zlen (ls_groups N ls) = zlen gl.
Proof. intros ((_ & _ & _ & E & _) & _). rewrite E. unfold zlen. now rewrite map_length. Qed.
Lemma lists_get ls gl i v cs : lists ls gl -> zget gl i = Ok (v, cs) -> exists g, zget (ls_groups N ls) i = Ok g /\
  grp_links N s L (ls_map N ls) i g cs /\ rep_is g v.
Proof.
  intros (H1 & H2) Hi. destruct (links_get _ _ _ _ _ _ _ H1 (zget_map snd _ _ _ Hi)) as (g & Eg & G). exists g. eauto.
Qed.
Lemma lists_set ls gl i g c groups : lists ls gl -> zget (ls_groups N ls) i = Ok g -> same_ts N (g_centroid N g) c -> cache_ok N h c ->
  zset (ls_groups N ls) i (set_centroid_ts N g c) = Ok groups ->
  lists (mkLS N (ls_length N ls) (ls_sub N ls) groups (ls_map N ls)) gl.
Proof.
  intros ((H1 & H2 & H3 & H4 & H5 & H6) & H7) Hg Sc Cc E. split.
  - unfold GroupProofs.links. cbn [ls_length ls_sub ls_groups ls_map]. do 3 (split; [assumption|]). split; [now rewrite (zset_len _ _ _ _ E)|]. split; [|auto].
    intros j g' ms Hj Hms. destruct (Z.eq_dec i j) as [<-|Hn].
    + rewrite (zget_zset_eq _ _ _ _ E) in Hj. injection Hj as <-. exact (H5 _ _ _ Hg Hms).
    + rewrite (zget_zset_neq _ _ _ _ _ E) in Hj by auto. eauto.
  - cbn [ls_groups]. intros j g' v cs Hj Hv. destruct (Z.eq_dec i j) as [<-|Hn].
    + rewrite (zget_zset_eq _ _ _ _ E) in Hj. injection Hj as <-. destruct (H7 _ _ _ _ Hg Hv) as (A & B & _ & Hh).
      unfold rep_is, set_centroid_ts. cbn [g_centroid]. rewrite <- (same_read N h _ _ Sc). destruct Sc as (Es & _ & _ & _ & El).
      split; [exact A|]. split; [now rewrite <- El|]. split; [exact Cc|]. unfold here in *. now rewrite <- Es.
    + rewrite (zget_zset_neq _ _ _ _ _ E) in Hj by auto. eauto.
Qed.
Definition rv (gl : list (list T * list coord)) (k : Z) : list T := match zget gl k with Ok (v, _) => v | _ => [] end.
Lemma rv_get gl k v cs : zget gl k = Ok (v, cs) -> rv gl k = v.
Proof. intros H. unfold rv. now rewrite H. Qed.
Lemma rv_ok gl k : comparable gl -> 0 <= k < zlen gl -> okv L (rv gl k).
Proof.
  intros Hc Hk. destruct (zget_Ok gl k Hk) as ((v & cs) & E). rewrite (rv_get _ _ _ _ E). eapply Hc. eapply zget_in; eauto.
Qed.

Record rbest_inv (gl : list (list T * list coord)) (ls0 : lspace N) (drop : T) (j : Z) (st : bg_state N) : Prop := {
  ri_ls : let '(groups, _, _, _) := st in lists (mkLS N (ls_length N ls0) (ls_sub N ls0) groups (ls_map N ls0)) gl;
  ri_q : let '(_, q, _, _) := st in q_ok q;
  ri_pos : let '(_, _, d, _) := st in pos d /\ le d drop;
  ri_best : let '(_, _, d, o) := st in match o with
    | None => d = drop
    | Some i => 0 <= i < j /\ d = D (rv gl i) /\ lt d drop
    end;
  ri_all : let '(_, _, d, _) := st in forall k, 0 <= k < j -> behind d (D (rv gl k))
}.
Lemma getBestGroup_rep ls gl q drop : lists ls gl -> comparable gl -> q_ok q -> pos drop ->
  Post (getBestGroup N h ratio ls q drop) (fun r => let '(ls', q', o, d) := r in
    lists ls' gl /\ q_ok q' /\ pos d /\ le d drop /\
    match o with
    | None => d = drop
    | Some i => 0 <= i < zlen gl /\ d = D (rv gl i) /\ lt d drop
    end /\ forall k, 0 <= k < zlen gl -> behind d (D (rv gl k))).
Proof.
  intros Hls Hcm Hqo Pd. unfold getBestGroup. rewrite (lists_len _ _ Hls).
  eapply Post_seq; [apply (for_rule_le (rbest_inv gl ls drop)); [apply zlen_nonneg| |]|].
  - split; [destruct ls; exact Hls|exact Hqo|split; [auto|apply (le_refl N pos PO); auto]|reflexivity|intros k Hk; lia].
  - intros j (((groups & q1) & d) & o) Hj [I1 I2 I3 I4 I5]. destruct I3 as (Pd1 & Ld). unfold best_group_step.
    destruct (zget_Ok gl j Hj) as ((v & cs) & Ev). destruct (lists_get _ _ _ _ _ I1 Ev) as (g & Eg & G & Rc & Lc & Cc & _). cbn [ls_groups ls_map] in *.
    pose proof (rv_ok gl j Hcm Hj) as Vr. rewrite (rv_get _ _ _ _ Ev) in Vr. pose proof Vr as (Ez & _).
    rewrite Eg. cbn [bind]. destruct (q_read' q1 I2) as (Rq & Lq).
    destruct (dcasc_vq L v d HL Vr Pd1) as (w & Ew & Pw & Hw).
    destruct (cascade_ts_eq N h ratio (g_centroid N g) q1 d _ _ w Cc (proj2 I2) Rc Rq) as (c' & q' & Ec & S1 & C1 & S2 & C2); auto; try lia.
    rewrite Ec. cbn [bind]. destruct (zset_ex groups j (set_centroid_ts N g c')) as (groups' & Eg').
    { apply zget_inv in Eg. lia. }
    rewrite Eg'. cbn [bind].
    assert (J1 : lists (mkLS N (ls_length N ls) (ls_sub N ls) groups' (ls_map N ls)) gl) by exact (lists_set _ _ _ _ _ _ I1 Eg S1 C1 Eg').
    assert (J2 : q_ok q') by (split; [eapply same_trans; [apply I2|exact S2]|exact C2]).
    pose proof (D_pos L _ HL Vr) as PW.
    destruct (nltb N w d) eqn:Elt; apply Post_Ok.
    + assert (E' : w = D v).
      { destruct Hw as [|(-> & _)]; auto. exfalso. apply (lt_not_le N _ _ Elt). now apply (c_le_inf _ _ _ CL). }
      subst w. split; [exact J1|exact J2| | |].
      * split; auto. apply (ord_trans _ _ PO) with d; auto. apply (lt_le N pos PO); auto.
      * split; [lia|]. rewrite (rv_get _ _ _ _ Ev). split; auto. apply (lt_le_trans N pos PO) with d; auto.
      * intros k Hk. destruct (Z.eq_dec k j) as [->|].
        -- rewrite (rv_get _ _ _ _ Ev). apply behind_le; auto. apply (le_refl N pos PO); auto.
        -- assert (Vk : okv L (rv gl k)) by (apply rv_ok; auto; lia).
           apply (behind_down d); auto; [eapply D_pos; eauto|apply (lt_le N pos PO); auto|apply I5; lia].
    + split; [exact J1|exact J2|split; auto| |].
      * destruct o as [i|]; auto. destruct I4 as (? & ? & ?). split; [lia|auto].
      * intros k Hk. destruct (Z.eq_dec k j) as [->|]; [|apply I5; lia]. rewrite (rv_get _ _ _ _ Ev).
        destruct Hw as [->|(_ & Hb)]; auto.
  - intros (((groups & q1) & d) & o) [I1 I2 (I3 & I3') I4 I5]. apply Post_Ok. auto 10.
Qed.

(** The best member of one group; a group without members gives the first subsequence and no distance. *)
Lemma group_match_rep ls gl gi v cs g q : lists ls gl -> comparable gl -> zget gl gi = Ok (v, cs) -> zget (ls_groups N ls) gi = Ok g -> q_ok q ->
  lt (D v) (ninf N) ->
  (cs = [] /\ group_getBestMatch N h ratio s (ls_map N ls) g q = Ok (mkCand (view N s b L (0, 0)) (ninf N))) \/
  exists c, In c cs /\ group_getBestMatch N h ratio s (ls_map N ls) g q = Ok (mkCand (view N s b L c) (D (vals L c))) /\
    lt (D (vals L c)) (ninf N) /\ forall c', In c' cs -> behind (D (vals L c)) (D (vals L c')).
Proof.
  intros H Hcm Hms Hg Hqo Hfin. pose proof (c_pos_inf _ _ _ CL) as PI.
  destruct (Hcm v cs (zget_in _ _ _ Hms)) as (Hv & Hcs).
  pose proof (zget_map snd _ _ _ Hms) as Hms'. cbn [snd] in Hms'.
  pose proof (proj1 (proj2 (proj2 (proj2 (proj2 (proj1 H))))) _ _ _ Hg Hms') as G.
  destruct G as (G1 & G2 & G3 & G4 & G6 & _).
  assert (Hval : forall c', In c' cs -> valid L c') by (eapply links_members_valid; [exact (proj1 H)|exact Hms']).
  unfold group_getBestMatch. set (w := while_ _ _ _ _).
  set (fr := fun st : match_state N => let '(_, d, m, q) := st in
     q_ok q /\ pos d /\ ((d = ninf N /\ m = (0, 0)) \/ (In m cs /\ d = D (vals L m) /\ lt d (ninf N)))).
  assert (P : Post w (fun st => fr st /\ let '(_, d, _, _) := st in forall c, In c cs -> behind d (D (vals L c)))).
  { unfold w. eapply Post_conseq; [eapply (walk_links N s Hlen L ltac:(lia) ls (map snd gl) gi cs _ _ (fun st : match_state N => let '(c, _, _, _) := st in c)
      (fun rem st => fr st /\ exists r2, cs = rem ++ r2 /\ let '(_, d, _, _) := st in forall c, In c r2 -> behind d (D (vals L c)))); eauto|].
    - exact (proj1 H).
    - split; [cbn; auto|]. exists []. rewrite app_nil_r. split; auto. intros c [].
    - intros (((? & ?) & ?) & ?). reflexivity.
    - intros rem c (((cur & d) & m) & q1) (r3 & Em) (Hfr & r2 & Er & Hall) Ecur Vc Hp. cbn in Ecur. subst cur.
      destruct Hfr as (Hq1 & Pd & Hd). unfold group_match_body. rewrite G2, G3.
      pose proof (get_view N s b Hbuf L ltac:(lia) c Vc) as Gv. rewrite Gv. cbn [bind].
      destruct (q_read' q1 Hq1) as (Rq & Lq).
      assert (Rc : ts_read N h (view N s b L c) = Ok (vals L c)) by (apply read_view; auto; lia).
      assert (Hc : In c cs) by (rewrite Em; apply in_or_app; left; apply in_or_app; right; now left).
      pose proof (Hcs c Hc) as Oc. pose proof Oc as (Ez & _).
      destruct (dcasc_qv L (vals L c) d HL Oc Pd) as (x & Ex & Px & Hx).
      destruct (cascade_ts_eq N h ratio q1 (view N s b L c) d _ _ x (proj2 Hq1) (cache_None N h (view N s b L c) eq_refl) Rq Rc)
        as (q' & t' & Ec & S1 & C1 & S2 & C2); auto; [lia|cbn; lia|].
      rewrite Ec. cbn [bind].
      assert (J2 : q_ok q') by (split; [eapply same_trans; [apply Hq1|exact S1]|exact C1]).
      pose proof (D_pos L _ HL Oc) as PW.
      assert (Er' : cs = rem ++ c :: r2) by (rewrite Er, <- app_assoc; reflexivity).
      destruct (nltb N x d) eqn:Elt; cbn [bind]; rewrite Hp; cbn [bind]; apply Post_Ok.
      + assert (E' : x = D (vals L c)).
        { destruct Hx as [|(-> & _)]; auto. exfalso. apply (lt_not_le N _ _ Elt). now apply (c_le_inf _ _ _ CL). }
        subst x. split; auto. split.
        * split; auto. split; auto. right. split; auto. split; auto.
          apply (lt_le_trans N pos PO) with d; auto. now apply (c_le_inf _ _ _ CL).
        * exists (c :: r2). split; auto. intros c' [<-|Hc'].
          -- apply behind_le; auto. apply (le_refl N pos PO); auto.
          -- apply (behind_down d); auto; [eapply D_pos; [exact HL|]; apply Hcs; rewrite Er'; apply in_or_app; right; now right|].
             apply (lt_le N pos PO); auto.
      + split; auto. split; [split; auto|]. exists (c :: r2). split; auto. intros c' [<-|Hc']; auto.
        destruct Hx as [->|(_ & Hb)]; auto.
    - intros (((cur & d) & m) & q1) (Hfr & r2 & Er & Hall). split; auto. cbn in Er. now subst r2. }
  destruct (Post_inv _ _ P) as ((((cur & d) & m) & q1) & -> & (Hq1 & Pd & Hd) & Hall). cbn [bind]. rewrite G2.
  assert (V0 : valid L (0, 0)) by (unfold GroupProofs.valid; cbn; lia).
  destruct cs as [|c0 cs'].
  - left. split; auto. destruct Hd as [(-> & ->)|([] & _)].
    pose proof (get_view N s b Hbuf L ltac:(lia) (0, 0) V0) as Gv. rewrite Gv. reflexivity.
  - right. assert (Hl : lt d (ninf N)).
    { apply (proj2 (Hall c0 (or_introl eq_refl))). apply (D_fin L v); auto. apply Hcs. now left. }
    destruct Hd as [(-> & _)|(Hm & -> & _)]; [exfalso; apply (lt_not_le N _ _ Hl); now apply (c_le_inf _ _ _ CL)|].
    exists m. split; auto. pose proof (get_view N s b Hbuf L ltac:(lia) m (Hval m Hm)) as Gv. rewrite Gv. cbn [bind]. auto.
Qed.
End OneLength.

(** All lengths. *)
Definition rspaces (gf : Z -> list (list T * list coord)) (spaces : list (option (lspace N))) : Prop :=
  zlen spaces = set_len s + 1 /\
  (forall L, 2 <= L <= set_len s -> exists ls, zget spaces L = Ok (Some ls) /\ lists L ls (gf L)).
Definition all_comparable (gf : Z -> list (list T * list coord)) : Prop := forall L, 2 <= L <= set_len s -> comparable L (gf L).

Definition rgm_inv (gf : Z -> list (list T * list coord)) (done : list Z) (st : gm_state N) : Prop :=
  let '(sp, q, d, o) := st in
  rspaces gf sp /\ q_ok q /\ pos d /\
  match o with
  | None => d = ninf N
  | Some (l, i) => 2 <= l <= set_len s /\ 0 <= i < zlen (gf l) /\ d = D (rv (gf l) i) /\ lt d (ninf N)
  end /\
  forall l k, In l done -> 0 <= k < zlen (gf l) -> behind d (D (rv (gf l) k)).

Lemma rmatch_loop gf sp order : rspaces gf sp -> all_comparable gf -> q_ok q0 ->
  (forall l, In l order -> 2 <= l <= set_len s) ->
  Post (for_each order (global_match_step N h ratio) (sp, q0, ninf N, None)) (rgm_inv gf order).
Proof.
  intros Hsp Hcm Hq0 Hord. pose proof (c_pos_inf _ _ _ CL) as PI.
  apply (for_each_rule (rgm_inv gf) _ order []).
  - split; auto. split; auto. split; auto. split; auto. intros l k [].
  - cbn [app]. intros pre l post (((sp1 & q1) & d) & o) El (I1 & I3 & I4 & I5 & I6).
    assert (Hl : 2 <= l <= set_len s) by (apply Hord; rewrite El; apply in_or_app; right; now left).
    unfold global_match_step. destruct (proj2 I1 l Hl) as (ls & Els & Hls). rewrite Els. cbn [bind].
    eapply Post_seq; [apply (getBestGroup_rep l Hl ls (gf l) q1 d Hls (Hcm l Hl) I3 I4)|].
    intros (((ls' & q') & gi) & d') (J1 & J2 & J3 & J4 & J5 & J6).
    destruct (zset_ex sp1 l (Some ls')) as (sp2 & Es); [destruct I1 as (-> & _); lia|]. rewrite Es. cbn [bind].
    assert (K1 : rspaces gf sp2).
    { split; [rewrite (zset_len _ _ _ _ Es); apply I1|]. intros l' Hl'. destruct (Z.eq_dec l l') as [<-|Hn].
      - rewrite (zget_zset_eq _ _ _ _ Es). eauto.
      - rewrite (zget_zset_neq _ _ _ _ _ Es) by auto. now apply I1. }
    assert (Hval : forall l k, 2 <= l <= set_len s -> 0 <= k < zlen (gf l) -> pos (D (rv (gf l) k))).
    { intros l' k Hl' Hk. apply (D_pos l'); auto. apply rv_ok; auto. }
    assert (Hpre : forall l', In l' pre -> 2 <= l' <= set_len s) by (intros l' H'; apply Hord; rewrite El; apply in_or_app; now left).
    destruct (nltb N d' d) eqn:Elt; apply Post_Ok.
    + unfold rgm_inv. do 3 (split; [assumption|]). split.
      * destruct gi as [i|]; [|subst d'; exfalso; apply (lt_not_le N _ _ Elt); apply (le_refl N pos PO); auto].
        destruct J5 as (? & ? & ?). split; auto. split; auto. split; auto.
        apply (lt_le_trans N pos PO) with d; auto. now apply (c_le_inf _ _ _ CL).
      * intros l' k Hin Hk. apply in_app_iff in Hin as [Hin|[<-|[]]]; [|auto].
        apply (behind_down d); auto.
    + unfold rgm_inv. do 3 (split; [assumption|]). split; [exact I5|].
      intros l' k Hin Hk. apply in_app_iff in Hin as [Hin|[<-|[]]]; [auto|].
      replace d with d'; auto. apply (c_antisym _ _ _ CL); auto.
Qed.

(** The lengths that a match looks at. *)
Definition near (L : Z) : Prop :=
  L = zlen qv \/ Z.abs (L - zlen qv) <= bw (Z.max L (zlen qv)) /\ (forall k, 1 <= k -> k + 1 <= set_len s -> bw (k + 1) <= bw k + 1).
(** What a match finds: a group with the nearest representative, and in it the nearest member. *)
Definition rfound (gf : Z -> list (list T * list coord)) (L : Z) (v : list T) (cs : list coord) (c : coord) (w : T) : Prop :=
  2 <= L <= set_len s /\ In (v, cs) (gf L) /\ valid L c /\ lt (D v) (ninf N) /\
  ((cs = [] /\ c = (0, 0) /\ w = ninf N) \/
   (In c cs /\ w = D (vals L c) /\ lt w (ninf N) /\ forall c', In c' cs -> behind w (D (vals L c')))) /\
  (forall L' v' cs', 2 <= L' <= set_len s -> near L' -> In (v', cs') (gf L') -> behind (D v) (D v')).

Theorem rmatch_spec gf gs : rspaces gf (gs_spaces N gs) -> all_comparable gf -> q_ok q0 ->
  (exists L v cs, 2 <= L <= set_len s /\ near L /\ In (v, cs) (gf L)) ->
  exists sp L v cs c w,
    global_getBestMatch N h ratio s gs q0 = Ok (mkGS N sp (gs_name N gs) (gs_kind N gs), mkCand (view N s b L c) w) /\
    rspaces gf sp /\ rfound gf L v cs c w.
Proof.
  intros Hsp Hcm Hq0 Hne. unfold global_getBestMatch. rewrite Hql. destruct (Z.leb_spec (zlen qv) 1); [lia|].
  replace (zlen (gs_spaces N gs) - 1) with (set_len s) by (destruct Hsp as (-> & _); lia).
  assert (B : forall k, 1 <= k <= Z.max (zlen qv) (set_len s) -> calculateWarpingBandSize N ratio k = Ok (bw k))
    by (intros k Hk; apply Hbw; lia).
  destruct (traverse_inv N ratio (zlen qv) (set_len s) bw ltac:(lia) B) as (order & E & _).
  destruct (traverse_sound N ratio (zlen qv) (set_len s) bw ltac:(lia) B order E) as (H1 & _ & H3 & _).
  assert (Hord : forall l, In l order -> 2 <= l <= set_len s).
  { intros l Hl. destruct (H3 l Hl) as [->|(? & _)]; lia. }
  rewrite E. cbn [bind].
  destruct (Post_inv _ _ (rmatch_loop gf (gs_spaces N gs) order Hsp Hcm Hq0 Hord)) as ((((sp & q1) & d) & o) & Em & I1 & I3 & I4 & I5 & I6).
  rewrite Em. cbn [bind].
  assert (Hhd : In (zlen qv) order) by (destruct order; [discriminate|injection H1 as ->; now left]).
  assert (Hvis : forall L, 2 <= L <= set_len s -> near L -> In L order).
  { intros L HL [->|(Hor & Hgap)]; auto.
    apply (traverse_complete N ratio (zlen qv) (set_len s) bw ltac:(lia) B) with (order := order); auto.
    intros k' Hk1 Hk2. apply Hgap; lia. }
  assert (Hd : lt d (ninf N)).
  { destruct Hne as (L & v & cs & HL & Hn & Hin). apply in_zget in Hin as (k & Hk & Ek).
    apply (proj2 (I6 _ k (Hvis L HL Hn) Hk)). apply (D_near L); auto; [apply rv_ok; auto|].
    pose proof (Hbw0 (zlen qv) ltac:(lia)). destruct Hn as [->|(Hn & _)]; [|rewrite Z.max_comm; exact Hn].
    rewrite Z.sub_diag, Z.max_id. cbn. lia. }
  destruct o as [(L & gi)|]; [|subst d; exfalso; apply (lt_not_le N _ _ Hd); apply (le_refl N pos PO); apply (c_pos_inf _ _ _ CL)].
  destruct I5 as (HL & Hgi & -> & _). destruct (proj2 I1 L HL) as (ls & Els & Hls). rewrite Els. cbn [bind].
  destruct (zget_Ok (gf L) gi Hgi) as ((v & cs) & Ems). destruct (lists_get L ls (gf L) gi v cs Hls Ems) as (g & Eg & _).
  rewrite Eg. cbn [bind]. rewrite (rv_get _ _ _ _ Ems) in *.
  assert (Hrep : forall L' v' cs', 2 <= L' <= set_len s -> near L' -> In (v', cs') (gf L') -> behind (D v) (D v')).
  { intros L' v' cs' HL' Hor Hin. apply in_zget in Hin as (k & Hk & Ek). rewrite <- (rv_get _ _ _ _ Ek). apply I6; auto. }
  pose proof (zget_in _ _ _ Ems) as Hin.
  destruct (group_match_rep L HL ls (gf L) gi v cs g q1 Hls (Hcm L HL) Ems Eg I3 Hd) as [(Ecs & Ec)|(c & Hc & Ec & Hfin & Hall)];
    rewrite Ec; cbn [bind].
  - exists sp, L, v, cs, (0, 0), (ninf N). split; [reflexivity|]. split; [exact I1|]. split; [exact HL|]. split; [exact Hin|].
    split; [unfold GroupProofs.valid; cbn; lia|]. split; [exact Hd|]. split; [left; auto|exact Hrep].
  - exists sp, L, v, cs, c, (D (vals L c)). split; [reflexivity|]. split; [exact I1|]. split; [exact HL|]. split; [exact Hin|].
    split; [eapply (links_members_valid N s L); [exact (proj1 Hls)|exact (zget_map snd _ _ _ Ems)|exact Hc]|].
    split; [exact Hd|]. split; [right; auto|exact Hrep].
Qed.

(** Without a group within the band nothing is found, and the pointer to the best group stays null. *)
Theorem rmatch_none gf gs : rspaces gf (gs_spaces N gs) -> all_comparable gf -> q_ok q0 ->
  (forall L v cs, 2 <= L <= set_len s -> In (v, cs) (gf L) -> bw (Z.max L (zlen qv)) < Z.abs (L - zlen qv)) ->
  global_getBestMatch N h ratio s gs q0 = UB NullDeref.
Proof.
  intros Hsp Hcm Hq0 Hne. unfold global_getBestMatch. rewrite Hql. destruct (Z.leb_spec (zlen qv) 1); [lia|].
  replace (zlen (gs_spaces N gs) - 1) with (set_len s) by (destruct Hsp as (-> & _); lia).
  assert (B : forall k, 1 <= k <= Z.max (zlen qv) (set_len s) -> calculateWarpingBandSize N ratio k = Ok (bw k))
    by (intros k Hk; apply Hbw; lia).
  destruct (traverse_inv N ratio (zlen qv) (set_len s) bw ltac:(lia) B) as (order & E & _).
  destruct (traverse_sound N ratio (zlen qv) (set_len s) bw ltac:(lia) B order E) as (H1 & _ & H3 & _).
  assert (Hord : forall l, In l order -> 2 <= l <= set_len s).
  { intros l Hl. destruct (H3 l Hl) as [->|(? & _)]; lia. }
  rewrite E. cbn [bind].
  destruct (Post_inv _ _ (rmatch_loop gf (gs_spaces N gs) order Hsp Hcm Hq0 Hord)) as ((((sp & q1) & d) & o) & Em & I1 & I3 & I4 & I5 & I6).
  rewrite Em. cbn [bind]. destruct o as [(L & gi)|]; [exfalso|reflexivity]. destruct I5 as (HL & Hgi & -> & Hlt).
  destruct (zget_Ok (gf L) gi Hgi) as ((v & cs) & Ems). rewrite (rv_get _ _ _ _ Ems) in Hlt.
  rewrite (D_far L v HL) in Hlt.
  - apply (lt_not_le N _ _ Hlt). apply (le_refl N pos PO). apply (c_pos_inf _ _ _ CL).
  - eapply (Hcm L HL). eapply zget_in; eauto.
  - rewrite Z.max_comm. eapply Hne; eauto. eapply zget_in; eauto.
Qed.
End RepMatch.
