(** * Matching never goes wrong on groups whose cached envelopes may be out of date.

    After a dataset has been normalised the envelopes cached in its groups are those of the old values.  They are
    still arrays of the right length with initialised cells, and that is all that a match needs in order to return. *)
From Coq Require Import ZArith Bool Lia String List.
From Verif Require Import Outcome Num Lemire Distance TimeSeries Text Dataset Groups Laws Spec LemireProofs DtwProofs KeoghProofs SafeDist TraverseProofs.
From Verif Require Import TsProofs GroupProofs GlobalGroup MatchProofs SimProofs.
Import ListNotations.
Open Scope Z_scope.

Section Shapes.
Context (N : NumOps).
Local Notation T := (num N).

(** The first [n] cells of an envelope are initialised. *)
Definition arr (u : uarray N) (n : Z) : Prop := forall k, 0 <= k < n -> exists x, zget u k = Ok (Some x).
Definition cache_shape (t : ts N) : Prop :=
  match ts_cache t with None => True | Some c => arr (kc_lower c) (ts_len t) /\ arr (kc_upper c) (ts_len t) end.
(** The representative is a part of the dataset, or has values of its own (read from a file) with the property [ok]. *)
Definition rep_any (ok : list T -> Prop) (s : tset) (b : nat) (L : Z) (t : ts N) : Prop :=
  (exists c, valid s L c /\ same_ts N (view N s b L c) t) \/
  (exists v, (forall h, ts_read N h t = Ok v) /\ ts_len t = L /\ zlen v = L /\ ok v).
(** A group space with the members [gm] whose representatives have envelopes of the right shape. *)
Definition weak_ls (ok : list T -> Prop) (s : tset) (b : nat) (L : Z) (ls : lspace N) (gm : list (list coord)) : Prop :=
  links N s L ls gm /\ Forall (fun g => rep_any ok s b L (g_centroid N g) /\ cache_shape (g_centroid N g)) (ls_groups N ls).
Definition weak_spaces (ok : list T -> Prop) (s : tset) (b : nat) (gmf : Z -> list (list coord)) (sp : list (option (lspace N))) : Prop :=
  zlen sp = set_len s + 1 /\
  forall L, 2 <= L <= set_len s -> exists ls, zget sp L = Ok (Some ls) /\ weak_ls ok s b L ls (gmf L).

(** Groups of the dataset itself are such groups. *)
Lemma ls_weak ok h s b L ls gm : ls_ok N h s b L ls gm -> Forall (fun g => cache_shape (g_centroid N g)) (ls_groups N ls) -> weak_ls ok s b L ls gm.
Proof.
  intros H F. split; [eapply ls_links; eauto|]. apply Forall_forall. intros g Hg. rewrite Forall_forall in F. split; auto. left.
  destruct H as (_ & _ & _ & E & H & _ & Hv). apply in_zget in Hg as (k & Hk & Ek). destruct (zget_Ok gm k) as (ms & Em); [lia|].
  destruct (H k g ms Ek Em) as (_ & _ & _ & _ & Hne & _ & Sc & _). exists (hd (0, 0) ms). split.
  - apply Hv. eapply zget_concat; eauto. now apply hd_in.
  - destruct Sc as (B1 & B2 & B3 & B4 & B5). cbn in *. repeat split; cbn; congruence.
Qed.
End Shapes.

Section SafeMatch.
Context (N : NumOps) (dat pos : num N -> Prop) (CL : CostLaws N dat pos).
Local Notation T := (num N).
Local Notation lt := (Laws.lt N).
Local Notation le := (Laws.le N).
Let PO := c_pos_ord _ _ _ CL.
Hypothesis Hinf : forall x, nltb N (ninf N) x = false.

Context (h : heap N) (s : tset) (b : nat) (data : list T).
Hypothesis Hbuf : set_buf s = Some b.
Hypothesis Hheap : heap_get N h b = Ok data.
Hypothesis Hlen : set_len s <= 2 ^ 30.
Hypothesis Hcnt : 1 <= set_count s.
Hypothesis Hsize : set_count s * set_len s <= zlen data.
Local Notation valid := (valid s).
Local Notation vals := (vals N s data).
Context (ok : list T -> Prop).
Hypothesis Hokd : forall v, ok v -> Forall dat v.
Hypothesis Hvd : forall L c, 2 <= L <= set_len s -> valid L c -> ok (vals L c).

Context (q0 : ts N) (qv : list T).
Hypothesis Hq : ts_read N h q0 = Ok qv.
Hypothesis Hql : ts_len q0 = zlen qv.
Hypothesis Hqdat : Forall dat qv.
Hypothesis Hqlen : 2 <= zlen qv <= set_len s.

Context (ratio : T) (bw : Z -> Z).
Hypothesis Hbw : forall k, 1 <= k <= set_len s -> calculateWarpingBandSize N ratio k = Ok (bw k).
Hypothesis Hbw0 : forall k, 1 <= k <= set_len s -> 0 <= bw k.
Hypothesis Hov : forall v, ok v -> zlen v = zlen qv -> no_overflow N v qv (bw (zlen qv)).

(** ** The bounds with any envelopes. *)
Lemma envelope_any t v band : ts_read N h t = Ok v -> ts_len t = zlen v -> Forall dat v -> 1 <= zlen v -> 0 <= band -> cache_shape N t ->
  exists t' l u, ts_envelope N h t band = Ok (t', (l, u)) /\ same_ts N t t' /\ cache_shape N t' /\ arr N l (zlen v) /\ arr N u (zlen v).
Proof.
  intros Hr Hl Hd H1 Hb C. unfold ts_envelope.
  pose proof (generateKeoghLU_spec N dat (c_dat_ord _ _ _ CL) v band Hd H1 Hb) as P. apply Post_inv in P as ((l & u) & E & _ & _ & P).
  cbn [fst snd] in P.
  assert (Al : arr N l (zlen v)) by (intros k Hk; destruct (P k Hk) as ((x & Hx & _) & _); eauto).
  assert (Au : arr N u (zlen v)) by (intros k Hk; destruct (P k Hk) as (_ & (x & Hx & _)); eauto).
  assert (G : exists t' l' u', (v0 <- ts_read N h t ;; '(l, u) <- generateKeoghLU N v0 band ;;
      Ok (mkTS (ts_src t) (ts_index t) (ts_start t) (ts_end t) (ts_len t) (Some (mkCache band l u)), (l, u))) = Ok (t', (l', u')) /\
      same_ts N t t' /\ cache_shape N t' /\ arr N l' (zlen v) /\ arr N u' (zlen v)).
  { rewrite Hr. cbn [bind]. rewrite E. cbn [bind]. eexists _, l, u. split; [reflexivity|]. split; [now repeat split|].
    unfold cache_shape. cbn [ts_cache ts_len kc_lower kc_upper]. rewrite Hl. auto. }
  unfold cache_shape in C. destruct (ts_cache t) as [c|] eqn:Ec; [|exact G]. destruct (kc_band c =? band); [|exact G].
  exists t, (kc_lower c), (kc_upper c). split; auto. split; [apply same_refl|]. unfold cache_shape. rewrite Ec. rewrite <- Hl. auto.
Qed.
Lemma keogh_sum_any l u la bv d : arr N l la -> arr N u la -> exists w, keogh_sum N l u la bv d = Ok w.
Proof.
  intros Al Au. unfold keogh_sum.
  assert (P : forall z, Post (forb 0 (Z.min la (zlen bv)) (keogh_step N l u bv z) (nzero N)) (fun _ => True)).
  { intros z. eapply Post_conseq; [apply (forb_rule (fun _ _ => True) (fun _ => True)); auto|auto].
    intros j lb Hj _. unfold keogh_step. destruct (nltb N lb z); cbn [negb]; [|exact I].
    unfold ts_at. destruct (Z.ltb_spec j 0); [lia|]. destruct (Z.leb_spec (zlen bv) j); [lia|]. cbn [orb].
    destruct (zget_Ok bv j) as (bj & ->); [lia|]. cbn [bind]. unfold uget.
    destruct (Au j) as (uj & ->); [lia|]. cbn [bind]. destruct (nltb N uj bj); [exact I|].
    destruct (Al j) as (lj & ->); [lia|]. cbn [bind]. destruct (nltb N bj lj); exact I. }
  cbv zeta. set (z := nmul N (nmul N (nmul N d _) _) _). specialize (P z). apply Post_inv in P as (w & E & _). exists (euc_norm_dtw N w (Z.max la (zlen bv))).
  rewrite E. reflexivity.
Qed.

(** A pair of series: readable, lawful, within the length bound. *)
Definition ser (t : ts N) (v : list T) : Prop :=
  ts_read N h t = Ok v /\ ts_len t = zlen v /\ Forall dat v /\ 2 <= zlen v <= set_len s.
Lemma ser_same t t' v : same_ts N t t' -> ser t v -> ser t' v.
Proof.
  intros S (A & B & C). split; [now rewrite <- (same_read N h _ _ S)|]. split; auto. destruct S as (_ & _ & _ & _ & <-). auto.
Qed.
Lemma keogh_any a b0 av bv d : ser a av -> ser b0 bv -> cache_shape N a ->
  exists a' w, keogh_ts N h ratio a b0 d = Ok (a', w) /\ same_ts N a a' /\ cache_shape N a'.
Proof.
  intros (Ra & La & Da & Za) (Rb & Lb & Db & Zb) Ca. unfold keogh_ts. rewrite La, Lb, Hbw by lia. cbn [bind].
  destruct (envelope_any a av (bw (Z.max (zlen av) (zlen bv))) Ra La Da ltac:(lia) ltac:(apply Hbw0; lia) Ca) as (a' & l & u & E & S & C' & Al & Au).
  rewrite E. cbn [bind]. rewrite Rb. cbn [bind].
  assert (La' : ts_len a' = zlen av) by (destruct S as (_ & _ & _ & _ & <-); auto).
  rewrite La'. destruct (keogh_sum_any l u (zlen av) bv d Al Au) as (w & ->). cbn [bind]. eauto.
Qed.
Lemma cascade_any a b0 av bv d : ser a av -> ser b0 bv -> cache_shape N a -> cache_shape N b0 -> pos d ->
  exists a' b' w, cascade_ts N h ratio a b0 d = Ok (a', b', w) /\ same_ts N a a' /\ cache_shape N a' /\
    same_ts N b0 b' /\ cache_shape N b' /\ pos w /\ (d = ninf N -> warpedDistance N ratio av bv d = Ok w).
Proof.
  intros Sa Sb Ca Cb Pd. pose proof (c_pos_inf _ _ _ CL) as PI.
  assert (X : exists a' b' x, crossKeogh_ts N h ratio a b0 d = Ok (a', b', x) /\ same_ts N a a' /\ cache_shape N a' /\ same_ts N b0 b' /\ cache_shape N b').
  { unfold crossKeogh_ts. destruct (keogh_any a b0 av bv d Sa Sb Ca) as (a' & y & -> & S1 & C1). cbn [bind].
    destruct (nltb N d y).
    - exists a', b0, (ninf N). split; auto. split; auto. split; auto. split; auto. apply same_refl.
    - destruct (keogh_any b0 a' bv av d Sb (ser_same _ _ _ S1 Sa) Cb) as (b' & z & -> & S2 & C2). cbn [bind]. exists a', b', (smax N y z). auto. }
  destruct X as (a' & b' & x & E & S1 & C1 & S2 & C2). unfold cascade_ts. rewrite E. cbn [bind].
  destruct (ser_same _ _ _ S1 Sa) as (Ra & La & Da & Za). destruct (ser_same _ _ _ S2 Sb) as (Rb & Lb & Db & Zb).
  destruct (nltb N d x) eqn:El.
  - exists a', b', (ninf N). do 6 (split; [assumption || reflexivity|]). intros ->. rewrite Hinf in El. discriminate.
  - rewrite Ra. cbn [bind]. rewrite Rb. cbn [bind].
    pose proof (wd_safe N dat pos CL ratio av bv (bw (Z.max (zlen av) (zlen bv))) d Da Db ltac:(lia) ltac:(lia) ltac:(unfold klen; lia)
       ltac:(apply Hbw0; lia) ltac:(apply Hbw; lia)) as P.
    apply Post_inv in P as (w & Ew & Pw). rewrite Ew. cbn [bind]. exists a', b', w. do 6 (split; [assumption || reflexivity|]). auto.
Qed.

(** Equal lengths have a finite distance. *)
Lemma equal_fin v : ok v -> zlen v = zlen qv -> exists w, warpedDistance N ratio v qv (ninf N) = Ok w /\ lt w (ninf N).
Proof.
  intros Hv E. set (L := zlen qv) in *.
  assert (K : klen L) by (unfold klen, L; lia). assert (Hr : 0 <= bw L) by (apply Hbw0; unfold L; lia).
  destruct (wd_inf N dat pos CL ratio v qv (bw L)) as (C & HC & Ew); rewrite ?E; fold L; rewrite ?Z.max_id; auto; try (unfold L; lia).
  - apply Hbw. unfold L. lia.
  - rewrite E in Ew. fold L in Ew. rewrite Z.max_id in Ew. exists (euc_norm_dtw N C L). split; auto.
    apply (c_ndtw_fin _ _ _ CL); auto.
    + apply (dtw_cost_pos N dat pos CL v qv (bw L)); auto.
    + destruct HC as [((p & Hp & <-) & _)|(Hno & _)].
      * apply (Hov v Hv E _ _ p) in Hp; auto; fold L; lia.
      * exfalso. destruct (diag_path (bw L) Hr (Z.to_nat (L - 1))) as (p & Hp). apply (Hno p).
        rewrite E. fold L. replace (L - 1) with (Z.of_nat (Z.to_nat (L - 1))) by (unfold L; lia). exact Hp.
Qed.

(** ** The search. *)
Definition q_any (q : ts N) : Prop := ser q qv /\ cache_shape N q.

Section OneLength.
Context (L : Z).
Hypothesis HL : 2 <= L <= set_len s.

Lemma weak_len ls gm : weak_ls N ok s b L ls gm -> zlen (ls_groups N ls) = zlen gm.
Proof. intros ((_ & _ & _ & E & _) & _). exact E. Qed.
Lemma weak_get ls gm i g : weak_ls N ok s b L ls gm -> zget (ls_groups N ls) i = Ok g ->
  exists ms v, zget gm i = Ok ms /\ grp_links N s L (ls_map N ls) i g ms /\ ser (g_centroid N g) v /\ zlen v = L /\ ok v /\ cache_shape N (g_centroid N g).
Proof.
  intros H Hg. pose proof (weak_len _ _ H) as E. destruct H as (H & F). pose proof (zget_inv _ _ _ Hg) as (Hr & Hn).
  destruct (zget_Ok gm i) as (ms & Ems); [lia|].
  rewrite Forall_forall in F. destruct (F g) as (R & C); [eapply nth_error_In; eauto|].
  assert (G : grp_links N s L (ls_map N ls) i g ms) by (destruct H as (_ & _ & _ & _ & H & _); eauto).
  destruct R as [(c & Vc & Sc)|(v & Rv & Lv & Zv & Ov)].
  - assert (El : zlen (vals L c) = L) by (apply vals_len; auto; lia).
    exists ms, (vals L c). split; auto. split; auto. split; [|auto]. apply (ser_same _ _ _ Sc).
    split; [apply read_view; auto; lia|]. rewrite El. split; [reflexivity|]. split; auto.
  - exists ms, v. split; auto. split; auto. split; [|auto]. split; [apply Rv|]. split; [congruence|]. split; [auto|lia].
Qed.
Lemma rep_same t t' : same_ts N t t' -> rep_any N ok s b L t -> rep_any N ok s b L t'.
Proof.
  intros S [(c & Vc & Sc)|(v & Rv & Lv & Zv & Ov)].
  - left. exists c. split; auto. eapply same_trans; eauto.
  - right. exists v. split; [intros h'; rewrite <- (same_read N h' _ _ S); apply Rv|]. split; auto. destruct S as (_ & _ & _ & _ & <-). exact Lv.
Qed.
Lemma weak_set ls gm i g c groups : weak_ls N ok s b L ls gm -> zget (ls_groups N ls) i = Ok g ->
  same_ts N (g_centroid N g) c -> cache_shape N c -> zset (ls_groups N ls) i (set_centroid_ts N g c) = Ok groups ->
  weak_ls N ok s b L (mkLS N (ls_length N ls) (ls_sub N ls) groups (ls_map N ls)) gm.
Proof.
  intros ((H1 & H2 & H3 & H4 & H5 & H6) & F) Hg Sc Cc E. split.
  - unfold links. cbn [ls_length ls_sub ls_groups ls_map]. do 3 (split; [assumption|]). split; [now rewrite (zset_len _ _ _ _ E)|]. split; [|auto].
    intros j g' ms Hj Hms. destruct (Z.eq_dec i j) as [<-|Hn].
    + rewrite (zget_zset_eq _ _ _ _ E) in Hj. injection Hj as <-. exact (H5 _ _ _ Hg Hms).
    + rewrite (zget_zset_neq _ _ _ _ _ E) in Hj by auto. eauto.
  - cbn [ls_groups]. pose proof (zset_inv _ _ _ _ E) as (_ & ->). apply Forall_forall. intros x Hx. apply In_nth_error in Hx as (k & Hk). rewrite Forall_forall in F.
    destruct (Nat.eq_dec (Z.to_nat i) k) as [<-|Hn].
    + rewrite list_set_nth_error_eq in Hk by (apply zget_inv in Hg; apply nth_error_Some; destruct Hg; congruence). injection Hk as <-.
      split; [|exact Cc]. apply (rep_same _ _ Sc). apply F. eapply zget_in; eauto.
    + rewrite list_set_nth_error_neq in Hk by auto. apply F. eapply nth_error_In; eauto.
Qed.

Definition bg_any (gm : list (list coord)) (ls0 : lspace N) (drop : T) (j : Z) (st : bg_state N) : Prop :=
  let '(groups, q, d, o) := st in
  weak_ls N ok s b L (mkLS N (ls_length N ls0) (ls_sub N ls0) groups (ls_map N ls0)) gm /\ q_any q /\ pos d /\
  match o with None => d = drop | Some i => 0 <= i < zlen gm /\ lt d drop end /\
  (L = zlen qv -> drop = ninf N -> 0 < j -> o <> None).

Lemma getBestGroup_any ls gm q drop : weak_ls N ok s b L ls gm -> q_any q -> pos drop ->
  Post (getBestGroup N h ratio ls q drop) (fun r => let '(ls', q', o, d) := r in
    weak_ls N ok s b L ls' gm /\ q_any q' /\ pos d /\
    match o with None => d = drop | Some i => 0 <= i < zlen gm /\ lt d drop end /\
    (L = zlen qv -> drop = ninf N -> gm <> [] -> o <> None)).
Proof.
  intros Hls Hqo Pd. unfold getBestGroup.
  rewrite (weak_len _ _ Hls).
  eapply Post_seq; [apply (for_rule_le (bg_any gm ls drop)); [apply zlen_nonneg| |]|].
  - split; [destruct ls; exact Hls|]. split; auto. split; auto. split; auto. intros _ _ H. lia.
  - intros j (((groups & q1) & d) & o) Hj (I1 & (Sq & Cq) & Pd1 & I4 & I5). unfold best_group_step.
    destruct (zget_Ok groups j) as (g & Eg).
    { pose proof (weak_len _ _ I1) as E1. cbn [ls_groups] in E1. lia. }
    destruct (weak_get _ _ _ _ I1 Eg) as (ms & v & Ems & _ & Sg & Zv & Ov & Cg).
    rewrite Eg. cbn [bind].
    destruct (cascade_any (g_centroid N g) q1 _ _ d Sg Sq Cg Cq Pd1) as (c' & q' & w & Ec & S1 & C1 & S2 & C2 & Pw & Hw).
    rewrite Ec. cbn [bind]. destruct (zset_ex groups j (set_centroid_ts N g c')) as (groups' & Eg').
    { apply zget_inv in Eg. lia. }
    rewrite Eg'. cbn [bind].
    assert (J1 : weak_ls N ok s b L (mkLS N (ls_length N ls) (ls_sub N ls) groups' (ls_map N ls)) gm).
    { apply (weak_set _ _ _ _ _ _ I1 Eg S1 C1 Eg'). }
    assert (J2 : q_any q') by (split; [eapply ser_same; eauto|exact C2]).
    assert (J3 : L = zlen qv -> d = ninf N -> nltb N w d = true).
    { intros EL Ed. specialize (Hw Ed). subst d. destruct (equal_fin v Ov ltac:(congruence)) as (w' & Ew' & Hl). rewrite Ew' in Hw. injection Hw as ->. exact Hl. }
    destruct (nltb N w d) eqn:Elt; apply Post_Ok.
    + split; auto. split; auto. split; auto. split; [|discriminate]. split; auto.
      destruct o as [i|]; [|now subst d]. apply (lt_trans N pos PO) with d; auto. tauto.
    + split; auto. split; auto. split; auto. split; [exact I4|]. intros EL Ed Hj' ->. subst d. specialize (J3 EL Ed). discriminate.
  - intros (((groups & q1) & d) & o) (I1 & I2 & I3 & I4 & I5). apply Post_Ok. split; auto. split; auto. split; auto. split; auto.
    intros EL Ed Hne. apply I5; auto. destruct gm; [congruence|]. rewrite zlen_cons. pose proof (zlen_nonneg gm). lia.
Qed.

Lemma group_match_any ls gm gi g q : weak_ls N ok s b L ls gm -> zget (ls_groups N ls) gi = Ok g -> q_any q ->
  exists c d, group_getBestMatch N h ratio s (ls_map N ls) g q = Ok (mkCand (view N s b L c) d) /\ valid L c /\ pos d.
Proof.
  intros H Hg Hqo. pose proof (c_pos_inf _ _ _ CL) as PI.
  destruct (weak_get _ _ _ _ H Hg) as (ms & v & Hms & (G1 & G2 & G3 & G4 & G6 & _) & _). destruct H as (H & _).
  unfold group_getBestMatch. set (w := while_ _ _ _ _).
  assert (P : Post w (fun st => let '(_, d, m, q) := st in pos d /\ valid L m)).
  { unfold w. eapply Post_conseq; [eapply (walk_links N s Hlen L ltac:(lia) ls gm gi ms _ _ (fun st : match_state N => let '(c, _, _, _) := st in c)
      (fun rem st => let '(_, d, m, q) := st in q_any q /\ pos d /\ valid L m)); eauto|].
    - split; auto. split; auto. unfold GroupProofs.valid. cbn. lia.
    - intros (((? & ?) & ?) & ?). reflexivity.
    - intros rem c (((cur & d) & m) & q1) (r3 & Em) ((Sq & Cq) & Pd & Vm) Ecur Vc Hp. cbn in Ecur. subst cur.
      unfold group_match_body. rewrite G2, G3. rewrite (get_view N s b Hbuf L ltac:(lia) c Vc). cbn [bind].
      assert (El : zlen (vals L c) = L) by (apply vals_len; auto; lia).
      assert (Sc : ser (view N s b L c) (vals L c)) by (split; [apply read_view; auto; lia|]; rewrite El; split; [reflexivity|]; split; auto).
      destruct (cascade_any q1 (view N s b L c) _ _ d Sq Sc Cq I Pd) as (q' & t' & x & Ec & S1 & C1 & S2 & C2 & Px & _).
      rewrite Ec. cbn [bind].
      assert (J2 : q_any q') by (split; [eapply ser_same; eauto|exact C1]).
      destruct (nltb N x d); cbn [bind]; rewrite Hp; cbn [bind]; apply Post_Ok; auto.
    - intros (((cur & d) & m) & q1) (A & B & C). auto. }
  destruct (Post_inv _ _ P) as ((((cur & d) & m) & q1) & -> & Pd & Vm). cbn [bind].
  rewrite G2, (get_view N s b Hbuf L ltac:(lia) m Vm). cbn [bind]. exists m, d. auto.
Qed.
End OneLength.

Definition gm_any (gmf : Z -> list (list coord)) (done : list Z) (st : gm_state N) : Prop :=
  let '(sp, q, d, o) := st in
  weak_spaces N ok s b gmf sp /\ q_any q /\ pos d /\
  match o with
  | None => d = ninf N
  | Some (l, i) => 2 <= l <= set_len s /\ 0 <= i < zlen (gmf l)
  end /\ (In (zlen qv) done -> o <> None).

Lemma match_loop_any gmf sp order : weak_spaces N ok s b gmf sp -> q_any q0 -> gmf (zlen qv) <> [] ->
  (forall l, In l order -> 2 <= l <= set_len s) -> (forall l, hd_error order = Some l -> l = zlen qv) ->
  Post (for_each order (global_match_step N h ratio) (sp, q0, ninf N, None)) (gm_any gmf order).
Proof.
  intros Hsp Hq0 Hne Hord Hhd. pose proof (c_pos_inf _ _ _ CL) as PI.
  apply (for_each_rule (gm_any gmf) _ order []).
  - unfold gm_any. split; [assumption|]. split; [assumption|]. split; [assumption|]. split; [reflexivity|]. intros [].
  - cbn [app]. intros pre l post (((sp1 & q1) & d) & o) El (I1 & I3 & I4 & I5 & I6).
    assert (Hl : 2 <= l <= set_len s) by (apply Hord; rewrite El; apply in_or_app; right; now left).
    unfold global_match_step. destruct (proj2 I1 l Hl) as (ls & Els & Hls). rewrite Els. cbn [bind].
    eapply Post_seq; [apply (getBestGroup_any l Hl ls (gmf l) q1 d Hls I3 I4)|].
    intros (((ls' & q') & gi) & d') (J1 & J2 & J3 & J4 & J5).
    destruct (zset_ex sp1 l (Some ls')) as (sp2 & Es); [destruct I1 as (-> & _); lia|]. rewrite Es. cbn [bind].
    assert (K1 : weak_spaces N ok s b gmf sp2).
    { split; [rewrite (zset_len _ _ _ _ Es); apply I1|]. intros l' Hl'. destruct (Z.eq_dec l l') as [<-|Hn].
      - rewrite (zget_zset_eq _ _ _ _ Es). eauto.
      - rewrite (zget_zset_neq _ _ _ _ _ Es) by auto. now apply I1. }
    destruct (nltb N d' d) eqn:Elt; apply Post_Ok.
    + destruct gi as [i|]; [|subst d'; exfalso; apply (lt_not_le N _ _ Elt); apply (le_refl N pos PO); auto].
      split; auto. split; auto. split; auto. split; [split; tauto|]. discriminate.
    + split; auto. split; auto. split; auto. split; [exact I5|]. intros Hin. destruct o as [|]; [discriminate|]. exfalso.
      apply in_app_iff in Hin as [Hin|[->|[]]]; [now apply (I6 Hin)|].
      destruct pre as [|p0 pre].
      * specialize (J5 eq_refl I5 Hne). destruct gi as [i|]; [|congruence]. destruct J4 as (_ & J4). unfold Laws.lt in J4. congruence.
      * apply I6; [|reflexivity]. rewrite El in Hhd. cbn in Hhd. left. now rewrite (Hhd p0 eq_refl).
Qed.

Theorem match_any gmf gs : weak_spaces N ok s b gmf (gs_spaces N gs) -> cache_shape N q0 -> gmf (zlen qv) <> [] ->
  exists sp L c d, global_getBestMatch N h ratio s gs q0 =
      Ok (mkGS N sp (gs_name N gs) (gs_kind N gs), mkCand (view N s b L c) d) /\ weak_spaces N ok s b gmf sp /\
      2 <= L <= set_len s /\ valid L c.
Proof.
  intros Hsp Cq0 Hne. assert (Hq0 : q_any q0) by (split; [split; [exact Hq|auto]|exact Cq0]).
  unfold global_getBestMatch. rewrite Hql. destruct (Z.leb_spec (zlen qv) 1); [lia|].
  replace (zlen (gs_spaces N gs) - 1) with (set_len s) by (destruct Hsp as (-> & _); lia).
  assert (B : forall k, 1 <= k <= Z.max (zlen qv) (set_len s) -> calculateWarpingBandSize N ratio k = Ok (bw k))
    by (intros k Hk; apply Hbw; lia).
  destruct (traverse_inv N ratio (zlen qv) (set_len s) bw ltac:(lia) B) as (order & E & _).
  destruct (traverse_sound N ratio (zlen qv) (set_len s) bw ltac:(lia) B order E) as (H1 & _ & H3 & _).
  assert (Hord : forall l, In l order -> 2 <= l <= set_len s).
  { intros l Hl. destruct (H3 l Hl) as [->|(? & _)]; lia. }
  rewrite E. cbn [bind].
  assert (Hhd : In (zlen qv) order) by (destruct order; [discriminate|injection H1 as ->; now left]).
  assert (P : Post (for_each order (global_match_step N h ratio) (gs_spaces N gs, q0, ninf N, None)) (gm_any gmf order)).
  { apply match_loop_any; auto. intros l Hl. destruct order; [discriminate|]. cbn in Hl. injection H1 as ->. congruence. }
  destruct (Post_inv _ _ P) as ((((sp & q1) & d) & o) & Em & I1 & I3 & I4 & I5 & I6).
  rewrite Em. cbn [bind]. destruct o as [(L & gi)|]; [|now destruct (I6 Hhd)].
  destruct I5 as (HL & Hgi). destruct (proj2 I1 L HL) as (ls & Els & Hls). rewrite Els. cbn [bind].
  destruct (zget_Ok (ls_groups N ls) gi) as (g & Eg).
  { rewrite (weak_len L ls (gmf L) Hls). lia. }
  rewrite Eg. cbn [bind].
  destruct (group_match_any L HL ls (gmf L) gi g q1 Hls Eg I3) as (c & d' & Ec & Vc & _). rewrite Ec. cbn [bind].
  exists sp, L, c, d'. auto.
Qed.
End SafeMatch.

(** ** Grouping leaves no cached envelope. *)
Section Bare.
Context (N : NumOps).
Definition bare (g : group N) : Prop := ts_cache (g_centroid N g) = None.
Lemma insert_bare k h ratio s thr start idx ls ls' : insert_one N k h ratio s thr start idx ls = Ok ls' ->
  Forall bare (ls_groups N ls) -> Forall bare (ls_groups N ls').
Proof.
  unfold insert_one. intros E F. apply bind_Ok_inv in E as (q & Eq & E). apply bind_Ok_inv in E as ((best & besti) & _ & E).
  apply bind_Ok_inv in E as ((groups & bi) & Eg & E). apply bind_Ok_inv in E as (bi' & _ & E). apply bind_Ok_inv in E as (g & Hg & E).
  apply bind_Ok_inv in E as ((m & g') & Ea & E). apply bind_Ok_inv in E as (groups' & Es & E). injection E as <-. cbn [ls_groups].
  assert (F1 : Forall bare groups).
  { destruct (_ || _); [|now injection Eg as <- _]. apply bind_Ok_inv in Eg as (g1 & E1 & Eg). apply bind_Ok_inv in Eg as (g2 & E2 & Eg).
    injection Eg as <- _. apply Forall_app. split; auto. constructor; auto. unfold setCentroid in E2. apply bind_Ok_inv in E2 as (t & Et & E2).
    injection E2 as <-. unfold bare, ts_assign. cbn. unfold new_group in E1. apply bind_Ok_inv in E1 as (t1 & Et1 & E1). injection E1 as <-. unfold ts_new in Et1. destruct (_ <? 0); [discriminate|]. injection Et1 as <-. reflexivity. }
  assert (Bg : bare g') .
  { assert (bare g) by (rewrite Forall_forall in F1; apply F1; eapply zget_in; eauto). unfold addMember in Ea. apply bind_Ok_inv in Ea as (m1 & _ & Ea).
    injection Ea as _ <-. exact H. }
  apply zset_inv in Es as (_ & ->). apply Forall_forall. intros x Hx. apply In_nth_error in Hx as (n & Hn).
  rewrite Forall_forall in F1. destruct (Nat.eq_dec (Z.to_nat bi') n) as [<-|Hk].
  - rewrite list_set_nth_error_eq in Hn by (apply zget_inv in Hg; apply nth_error_Some; destruct Hg; congruence). now injection Hn as <-.
  - rewrite list_set_nth_error_neq in Hn by auto. apply F1. eapply nth_error_In; eauto.
Qed.
Lemma generate_bare k h ratio s thr doLog ls ls' : generateGroups N k h ratio s thr doLog ls = Ok ls' ->
  Forall bare (ls_groups N ls) -> Forall bare (ls_groups N ls').
Proof.
  unfold generateGroups. intros E F. apply bind_Ok_inv in E as ((l1 & c1) & Ef & E). injection E as <-.
  apply (for_Ok_inv (fun st : lspace N * Z => Forall bare (ls_groups N (fst st)))) in Ef; auto.
  intros i t t' _ Ei Ft.
  apply (for_Ok_inv (fun st : lspace N * Z => Forall bare (ls_groups N (fst st)))) in Ei; auto.
  intros j (l2 & c2) t2 _ Ej F2. apply bind_Ok_inv in Ej as (u & _ & Ej). apply bind_Ok_inv in Ej as (l3 & E3 & Ej). injection Ej as <-.
  cbn [fst] in *. eapply insert_bare; eauto.
Qed.
Lemma group_bare h ratio s name thr clock gs n : global_group N h ratio s name thr clock = Ok (gs, n) ->
  forall L ls, zget (gs_spaces N gs) L = Ok (Some ls) -> Forall bare (ls_groups N ls).
Proof.
  unfold global_group. intros E. apply bind_Ok_inv in E as (k & _ & E). apply bind_Ok_inv in E as (sp0 & E0 & E).
  apply bind_Ok_inv in E as ((sp & tot) & Ef & E). injection E as <- _. cbn [gs_spaces].
  refine (for_Ok_inv (fun st : list (option (lspace N)) * Z => forall L ls, zget (fst st) L = Ok (Some ls) -> Forall bare (ls_groups N ls)) _ _ _ _ _ Ef _ _).
  - intros L ls H. exfalso. unfold resize_null in E0. destruct (_ <? 0); [discriminate|]. injection E0 as <-.
    apply zget_inv in H as (_ & H). apply nth_error_In in H. unfold zrepeat in H. apply repeat_spec in H. discriminate.
  - intros i (sp1 & t1) t' _ Ei IH. apply bind_Ok_inv in Ei as (l1 & E1 & Ei). apply bind_Ok_inv in Ei as (l2 & E2 & Ei).
    apply bind_Ok_inv in Ei as (sp2 & Es & Ei). injection Ei as <-. cbn [fst] in *. intros L ls H. destruct (Z.eq_dec i L) as [<-|Hn].
    + rewrite (zget_zset_eq _ _ _ _ Es) in H. injection H as <-. eapply generate_bare; eauto. unfold new_lspace in E1. destruct (_ <? 0); [discriminate|].
      injection E1 as <-. constructor.
    + rewrite (zget_zset_neq _ _ _ _ _ Es) in H by auto. eauto.
Qed.
End Bare.
