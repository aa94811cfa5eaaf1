(** * What grouping and matching depend on: the values, the threshold and the ratio; nothing else of the
      session and its history.  Holds for any numbers, NaN and infinities included. *)
From Coq Require Import ZArith Bool Lia String List.
From Verif Require Import Outcome Num Lemire Distance TimeSeries Text Dataset Groups Api Laws.
From Verif Require Import TsProofs GroupSpec GroupProofs GlobalGroup MatchProofs SimProofs Indep SessionProofs SessionMatch.
Import ListNotations.
Open Scope Z_scope.

Lemma firstn_prefix {A} (l l' : list A) n m : (n <= m)%nat -> firstn m l = firstn m l' -> firstn n l = firstn n l'.
Proof.
  intros H E. transitivity (firstn n (firstn m l)); [rewrite firstn_firstn; f_equal; lia|].
  rewrite E, firstn_firstn. f_equal. lia.
Qed.
Lemma zslice_prefix {A} (l l' : list A) K p n : 0 <= p -> 0 <= n -> p + n <= K ->
  firstn (Z.to_nat K) l = firstn (Z.to_nat K) l' -> zslice l p n = zslice l' p n.
Proof.
  intros Hp Hn HK E. unfold zslice. rewrite !firstn_skipn_comm. f_equal. eapply firstn_prefix; [|exact E]. lia.
Qed.
Lemma Forall2_zget_intro {A B} (R : A -> B -> Prop) l : forall l', zlen l = zlen l' ->
  (forall i x x', zget l i = Ok x -> zget l' i = Ok x' -> R x x') -> Forall2 R l l'.
Proof.
  induction l as [|x l IH]; intros [|x' l'] E H; unfold zlen in E; cbn in E; try lia; constructor.
  - apply (H 0); reflexivity.
  - apply IH; [unfold zlen; lia|]. intros i y y' Hy Hy'. apply (H (i + 1)).
    + unfold zget in *. destruct (Z.ltb_spec i 0); [discriminate|]. destruct (Z.ltb_spec (i + 1) 0); [lia|].
      replace (Z.to_nat (i + 1)) with (S (Z.to_nat i)) by lia. exact Hy.
    + unfold zget in *. destruct (Z.ltb_spec i 0); [discriminate|]. destruct (Z.ltb_spec (i + 1) 0); [lia|].
      replace (Z.to_nat (i + 1)) with (S (Z.to_nat i)) by lia. exact Hy'.
Qed.
Lemma Forall2_map_eq {A B C} (R : A -> B -> Prop) (f : A -> C) (g : B -> C) l l' :
  (forall a b, R a b -> f a = g b) -> Forall2 R l l' -> map f l = map g l'.
Proof. intros H F. induction F; cbn; f_equal; auto. Qed.
Lemma Forall2_eq_list {A} (l l' : list A) : Forall2 eq l l' -> l = l'.
Proof. intros F. induction F; congruence. Qed.
Lemma orel_Ok_l {A B} (R : A -> B -> Prop) x a y : orel R x y -> x = Ok a -> exists b, y = Ok b /\ R a b.
Proof. intros H ->. destruct y; cbn in H; try destruct H. eauto. Qed.

Section SessionIndep.
Context (N : NumOps).
Local Notation T := (num N).
Local Notation st := (st N).
Local Notation check := (checkDatasetIndex N).

Lemma srel_values h h' t t' b b' data data' : same_values N t t' data data' ->
  set_buf t = Some b -> set_buf t' = Some b' -> heap_get N h b = Ok data -> heap_get N h' b' = Ok data' ->
  set_count t * set_len t <= zlen data -> set_count t * set_len t <= zlen data' -> srel N h h' t t'.
Proof.
  intros (E1 & E2 & E3) B B' G G' L L'. split; auto. split; auto. intros ix a e. unfold getTimeSeries. rewrite B, B', <- E1, <- E2.
  destruct (Z.ltb_spec ix 0); cbn [orb orel]; auto. destruct (Z.leb_spec (set_count t) ix); cbn [orel]; auto.
  assert (X : forall p n, 0 <= p -> p + n <= set_len t ->
     trel N h h' (mkTS (View b (ix * set_len t)) ix p (p + n) n None) (mkTS (View b' (ix * set_len t)) ix p (p + n) n None)).
  { intros p n Hp Hn. split; [|cbn; auto]. split; [reflexivity|]. split; [|split; apply cache_None; reflexivity].
    unfold ts_read. cbn [ts_src ts_start ts_len]. rewrite G, G'. cbn [bind]. unfold window.
    destruct (Z.leb_spec n 0); auto. assert (ix * set_len t + p + n <= set_count t * set_len t) by nia.
    assert (0 <= ix * set_len t + p) by nia.
    destruct (Z.ltb_spec (ix * set_len t + p) 0); [lia|]. destruct (Z.ltb_spec (zlen data) (ix * set_len t + p + n)); [lia|].
    destruct (Z.ltb_spec (zlen data') (ix * set_len t + p + n)); [lia|]. cbn [orb]. f_equal.
    apply (zslice_prefix _ _ (set_count t * set_len t)); auto; lia. }
  destruct (Z.ltb_spec a 0); cbn [andb orb].
  - destruct (Z.ltb_spec e 0); cbn [orel]; auto. apply (X 0 (set_len t)); lia.
  - destruct (Z.leb_spec e a); cbn [orb orel]; auto. destruct (Z.ltb_spec (set_len t) e); cbn [orel]; auto.
    specialize (X a (e - a)). replace (a + (e - a)) with e in X by lia. apply X; lia.
Qed.

(** ** Grouping. *)
Lemma grouped_rel σ1 i1 thr σ1' n1 gs1 d1 data1 σ2 i2 σ2' n2 gs2 d2 data2 :
  grouped N σ1 i1 thr σ1' n1 gs1 -> dataset N σ1 i1 d1 data1 ->
  grouped N σ2 i2 thr σ2' n2 gs2 -> dataset N σ2 i2 d2 data2 ->
  same_values N (ds_set N d1) (ds_set N d2) data1 data2 ->
  srel N (st_heap N σ1) (st_heap N σ2) (ds_set N d1) (ds_set N d2) /\
  gsrel N (st_heap N σ1) (st_heap N σ2) gs1 gs2 /\ n1 = n2.
Proof.
  intros G1 D1 G2 D2 V.
  destruct (api_group_inv N _ _ _ _ _ _ _ _ G1 D1) as (_ & _ & c1 & E1).
  destruct (api_group_inv N _ _ _ _ _ _ _ _ G2 D2) as (_ & _ & c2 & E2).
  apply (global_group_clock N) in E1. apply (global_group_clock N) in E2.
  destruct D1 as (_ & b1 & B1 & H1 & C1 & L1). destruct D2 as (_ & b2 & B2 & H2 & C2 & L2).
  assert (S : srel N (st_heap N σ1) (st_heap N σ2) (ds_set N d1) (ds_set N d2)).
  { eapply srel_values; eauto. destruct V as (-> & -> & _). auto. }
  split; auto.
  pose proof (group_rel N _ _ _ _ S "euclidean" (st_ratio N σ1) (st_ratio N σ2) thr (fun _ => false) (or_introl eq_refl)) as R.
  rewrite E1, E2 in R. exact R.
Qed.

Lemma groups_are_rel h h' s s' data data' gs gs' L gm gm' : srel N h h' s s' -> gsrel N h h' gs gs' ->
  groups_are N h s data gs L gm -> groups_are N h' s' data' gs' L gm' -> gm = gm'.
Proof.
  intros S (_ & _ & F) (ls & E & Hn & H) (ls' & E' & Hn' & H').
  pose proof (orel_zget _ _ _ L F) as O. rewrite E, E' in O. cbn [orel lorel] in O. destruct O as (O1 & O2 & O3 & O4).
  assert (Z : zlen gm = zlen gm').
  { rewrite <- Hn, <- Hn'. unfold getNumberOfGroups. eapply Forall2_zlen; eauto. }
  apply Forall2_eq_list. apply Forall2_zget_intro; auto. intros k ms ms' Em Em'.
  assert (Hk : 0 <= k < zlen gm) by (destruct (zget_inv _ _ _ Em) as (R & _); exact R).
  assert (G : exists g, getGroup N ls k = Ok g /\ zget (ls_groups N ls) k = Ok g).
  { unfold getGroup. destruct (Z.ltb_spec k 0); [lia|]. destruct (Z.leb_spec (getNumberOfGroups N ls) k); [lia|]. cbn [orb].
    destruct (zget_Ok (ls_groups N ls) k) as (g & Hg); [unfold getNumberOfGroups in Hn; lia|]. eauto. }
  assert (G' : exists g, getGroup N ls' k = Ok g /\ zget (ls_groups N ls') k = Ok g).
  { unfold getGroup. destruct (Z.ltb_spec k 0); [lia|]. destruct (Z.leb_spec (getNumberOfGroups N ls') k); [lia|]. cbn [orb].
    destruct (zget_Ok (ls_groups N ls') k) as (g & Hg); [unfold getNumberOfGroups in Hn'; lia|]. eauto. }
  destruct G as (g & Eg & Zg). destruct G' as (g' & Eg' & Zg').
  destruct (H k g ms Eg Em) as (_ & _ & _ & l & El & Ml & _). destruct (H' k g' ms' Eg' Em') as (_ & _ & _ & l' & El' & Ml' & _).
  pose proof (orel_zget _ _ _ k O4) as Og. rewrite Zg, Zg' in Og. cbn [orel] in Og.
  pose proof (members_rel N h h' s s' S (ls_map N ls) g g' Og) as M. rewrite O3 in M at 2. rewrite El, El' in M. cbn [orel] in M.
  apply (Forall2_map_eq (trel N h h') (fun t => (ts_index t, ts_start t)) (fun t => (ts_index t, ts_start t))) in M.
  - rewrite Ml, Ml' in M. apply (f_equal (@rev _)) in M. now rewrite !rev_involutive in M.
  - intros t t' (_ & -> & -> & _). reflexivity.
Qed.

(** ** Matching.  The relation with a fixed reference [h0, gs0] is kept by all quiet operations. *)
Section Keep.
Context (h0 : heap N) (gs0 : gspace N).

Lemma gsrel_sim h gs gs' : gsrel N h0 h gs0 gs -> gspsim N h gs gs' -> gsrel N h0 h gs0 gs'.
Proof.
  intros (A & B & C) (A' & B' & C'). split; [congruence|]. split; [congruence|].
  revert C C'. generalize (gs_spaces N gs0) (gs_spaces N gs) (gs_spaces N gs'). clear.
  intros l1 l2 l3 C. revert l3. induction C as [|o1 o2 l1 l2 H C IH]; intros l3 C'; inversion C' as [|? o3 ? l3' H' C'']; subst; constructor; auto.
  destruct o1 as [a|], o2 as [b|], o3 as [c|]; cbn in *; try tauto.
  destruct H as (H1 & H2 & H3 & H4), H' as (H1' & H2' & H3' & H4'). do 3 (split; [congruence|]).
  revert H4 H4'. generalize (ls_groups N a) (ls_groups N b) (ls_groups N c). clear. intros l1 l2 l3 C. revert l3.
  induction C as [|g1 g2 l1 l2 H C IH]; intros l3 C'; inversion C' as [|? g3 ? l3' H' C'']; subst; constructor; auto.
  destruct H as (H1 & H2 & H3 & H4 & H5 & H6), H' as (H1' & H2' & H3' & H4' & H5' & H6'). do 5 (split; [congruence|]).
  destruct H6 as (V1 & V2 & V3 & V4), H6' as (S & K). split; [|split; [|split; auto]].
  - destruct S as (_ & _ & _ & _ & S). congruence.
  - rewrite V2. now apply same_read.
Qed.

Lemma gsrel_heap h h' s b gmf gs : 0 <= set_len s + 1 -> set_len s <= 2 ^ 30 ->
  (forall L, L < 2 -> forall o, zget (gs_spaces N gs0) L = Ok o -> o = None) ->
  gsrel N h0 h gs0 gs -> spaces_ok N h s b gmf (gs_spaces N gs) ->
  heap_get N h' b = heap_get N h b -> gsrel N h0 h' gs0 gs.
Proof.
  intros Hs Hlen H2 (A & B & C) (Sl & So) E. split; auto. split; auto.
  apply Forall2_zget_intro; [eapply Forall2_zlen; eauto|]. intros L o o' Eo Eo'.
  pose proof (orel_zget _ _ _ L C) as O. rewrite Eo, Eo' in O. cbn [orel] in O.
  destruct (Z.ltb_spec L 2) as [HL|HL].
  { rewrite (H2 L HL o Eo) in *. destruct o'; [destruct O|]. exact I. }
  destruct (zget_inv _ _ _ Eo') as (R & _). destruct (So L) as (ls & El & Hls); [lia|]. rewrite El in Eo'. injection Eo' as <-.
  destruct o as [l0|]; [|destruct O]. cbn [lorel] in *. destruct O as (O1 & O2 & O3 & O4). do 3 (split; [auto|]).
  apply Forall2_zget_intro; [eapply Forall2_zlen; eauto|]. intros k g g' Eg Eg'.
  pose proof (orel_zget _ _ _ k O4) as O. rewrite Eg, Eg' in O. destruct O as (G1 & G2 & G3 & G4 & G5 & V1 & V2 & V3 & V4).
  do 5 (split; [auto|]).
  destruct Hls as (_ & _ & _ & Zl & Hg & _). destruct (zget_inv _ _ _ Eg') as (Rk & _).
  assert (Ems : exists ms, zget (gmf L) k = Ok ms) by (apply zget_Ok; lia). destruct Ems as (ms & Ems).
  destruct (Hg k g' ms Eg' Ems) as (_ & _ & _ & _ & _ & _ & (Ssrc & _) & _).
  assert (X : ts_read N h' (g_centroid N g') = ts_read N h (g_centroid N g')).
  { unfold ts_read. rewrite Ssrc. cbn [view ts_src]. now rewrite E. }
  split; auto. split; [congruence|]. split; auto. unfold cache_ok in *. destruct (ts_cache (g_centroid N g')); auto.
  now rewrite X.
Qed.

Lemma step_like IO writable (Hlow : forall L, L < 2 -> forall o, zget (gs_spaces N gs0) L = Ok o -> o = None) σ o σ' i d gs data gmf :
  0 <= set_len (ds_set N d) + 1 -> wf N σ -> ready N σ i d data gmf -> ds_groups N d = Some gs -> gsrel N h0 (st_heap N σ) gs0 gs ->
  after N (step N IO writable σ o) = Some σ' -> quiet N i o ->
  exists d' gs', ready N σ' i d' data gmf /\ ds_set N d' = ds_set N d /\ ds_groups N d' = Some gs' /\ gsrel N h0 (st_heap N σ') gs0 gs'.
Proof.
  intros Hl W R Eg G A Q. destruct (step_ready N IO writable _ _ _ _ _ _ _ W R A Q) as (d' & R' & Es & _).
  pose proof R as (C & Hlen & b & gsx & B1 & B2 & B3 & B4 & B5 & B6 & B7). replace gsx with gs in * by congruence.
  pose proof R' as (C' & _). 
  assert (K : keeps N σ σ' i -> exists d' gs', ready N σ' i d' data gmf /\ ds_set N d' = ds_set N d /\ ds_groups N d' = Some gs' /\ gsrel N h0 (st_heap N σ') gs0 gs').
  { intros K. destruct (K d C) as (K1 & K2). specialize (K2 b B1). exists d', gs. replace d' with d in * by congruence.
    do 3 (split; [auto|]). eapply gsrel_heap; eauto. }
  destruct (step_wf N IO writable σ o σ' W A) as (_ & HK).
  destruct (match_target N o) as [r|] eqn:Em; [|apply K, HK; auto; congruence].
  destruct (Z.eq_dec r i) as [->|Hn]; [|apply K, HK; auto; congruence].
  destruct o; try discriminate. injection Em as ->. cbn [step] in A.
  destruct (api_match N σ i query_idx index start end_) as [s1 v|s1 e| |] eqn:E; cbn in A; try discriminate; injection A as ->.
  - apply match_inv in E as (d1 & gs1 & gs' & c & dq & query & C1 & _ & _ & Eg1 & Em & -> & _).
    replace d1 with d in * by congruence. replace gs1 with gs in * by congruence.
    rewrite check_put in C' by exact (proj1 (check_inv N _ _ _ C)). injection C' as <-.
    exists (mkDS N (ds_set N d) (Some gs') (ds_thr N d)), gs'. split; auto. split; auto. split; auto.
    apply match_sim in Em. cbn [put_set with_sets st_heap]. eapply gsrel_sim; eauto.
  - assert (X : σ' = σ).
    { unfold api_match in E.
      apply lift_exn in E as [(_ & ->)|(d1 & _ & E)]; auto. apply lift_exn in E as [(_ & ->)|(dq & _ & E)]; auto.
      apply lift_exn in E as [(_ & ->)|(q & _ & E)]; auto. destruct (ds_groups N d1); [|injection E as <- _; auto].
      apply lift_exn in E as [(_ & ->)|((gsy & c) & _ & E)]; auto. discriminate. }
    subst σ'. exists d, gs. auto.
Qed.
Lemma run_like IO writable (Hlow : forall L, L < 2 -> forall o, zget (gs_spaces N gs0) L = Ok o -> o = None) ops : forall σ σ' i d gs data gmf,
  0 <= set_len (ds_set N d) + 1 -> wf N σ -> ready N σ i d data gmf -> ds_groups N d = Some gs -> gsrel N h0 (st_heap N σ) gs0 gs ->
  Forall (quiet N i) ops -> run N IO writable σ ops = Some σ' ->
  exists d' gs', ready N σ' i d' data gmf /\ ds_set N d' = ds_set N d /\ ds_groups N d' = Some gs' /\ gsrel N h0 (st_heap N σ') gs0 gs'.
Proof.
  induction ops as [|o ops IH]; intros σ σ' i d gs data gmf Hl W R Eg G Q E; cbn [run] in E; [injection E as <-; eauto 8|].
  destruct (after N (step N IO writable σ o)) as [s1|] eqn:A; [|discriminate].
  inversion Q as [|? ? Q1 Q2]; subst. destruct (step_like IO writable Hlow _ _ _ _ _ _ _ _ Hl W R Eg G A Q1) as (d1 & gs1 & R1 & E1 & Eg1 & G1).
  destruct (IH s1 σ' i d1 gs1 data gmf) as (d2 & gs2 & R2 & E2 & Eg2 & G2); auto.
  - now rewrite E1.
  - eapply step_wf; eauto.
  - exists d2, gs2. split; auto. split; [congruence|]. auto.
Qed.
End Keep.

(** The reference: the dataset alone in a heap. *)
Definition ref_heap (data : list T) : heap N := [Some data].
Definition ref_set (t : tset) : tset := mkSet (Some 0%nat) (set_len t) (set_count t) "" false.
Definition ref_query (qv : list T) : ts N := mkTS (Owned qv) 0 0 (zlen qv) (zlen qv) None.

Lemma earlier_like IO writable (dat pos : T -> Prop) σ' i thr t data data0 :
  grouped_earlier N IO writable σ' i thr t data -> set_len t <= 2 ^ 30 -> Laws.lt N (half_of N thr) (ninf N) ->
  firstn (Z.to_nat (set_count t * set_len t)) data0 = firstn (Z.to_nat (set_count t * set_len t)) data ->
  set_count t * set_len t <= zlen data0 ->
  exists gs0 n0 d gs, global_group N (ref_heap data0) (nzero N) (ref_set t) "euclidean" thr (fun _ => false) = Ok (gs0, n0) /\
    check σ' i = Ok d /\ ds_set N d = t /\ ds_groups N d = Some gs /\
    gsrel N (ref_heap data0) (st_heap N σ') gs0 gs /\ srel N (ref_heap data0) (st_heap N σ') (ref_set t) t.
Proof.
  intros (σ & d & σ1 & n & gs & ops & Wf & D & Et & G & Q & E) Hlen Hinf V L0.
  destruct (grouped_ready N dat pos σ i thr σ1 n gs d data G D ltac:(congruence) Hinf) as (gmf & d1 & R & E1 & _ & Eg1).
  destruct (grouped_spec N dat pos _ _ _ _ _ _ _ _ G D ltac:(congruence) Hinf) as (b & B1 & B2 & B3 & B4 & B5 & _ & B7 & _).
  destruct (api_group_inv N _ _ _ _ _ _ _ _ G D) as (Hh & _ & clock & Eg). apply (global_group_clock N) in Eg.
  assert (W1 : wf N σ1).
  { destruct G as (ck & d' & G & _). eapply (step_wf N IO writable σ (OpGroup N i thr ck)); auto.
    cbn [step]. now rewrite G. }
  assert (S : srel N (ref_heap data0) (st_heap N σ) (ref_set t) t).
  { subst t. apply (srel_values _ _ _ _ 0%nat b data0 data); auto; cbn; auto. repeat split; auto. }
  assert (X : exists r, global_group N (ref_heap data0) (nzero N) (ref_set t) "euclidean" thr (fun _ => false) = Ok r /\
     gsrel N (ref_heap data0) (st_heap N σ) (fst r) gs).
  { pose proof (group_rel N _ _ _ _ S "euclidean" (nzero N) (st_ratio N σ) thr (fun _ => false) (or_introl eq_refl)) as X.
    rewrite <- Et in X at 2. rewrite Eg in X. destruct (global_group N (ref_heap data0) _ _ _ _ _) as [r| | |]; cbn in X; try tauto.
    exists r. tauto. }
  destruct X as ((gs0 & n0) & Eref & Grel). cbn [fst] in Grel.
  assert (Hl : 0 <= set_len (ds_set N d1) + 1).
  { rewrite E1. pose proof (zlen_nonneg (gs_spaces N gs)). lia. }
  rewrite <- Hh in Grel.
  destruct (run_like (ref_heap data0) gs0 IO writable) with (ops := ops) (σ := σ1) (σ' := σ') (i := i) (d := d1) (gs := gs) (data := data) (gmf := gmf)
    as (d2 & gs2 & R2 & E2 & Eg2 & G2); auto.
  { intros L HL o Eo. destruct Grel as (_ & _ & F). pose proof (orel_zget _ _ _ L F) as O. rewrite Eo in O.
    destruct (zget_inv _ _ _ Eo) as (Rg & _). rewrite (Forall2_zlen _ _ _ F), B5 in Rg. rewrite B7 in O by lia. cbn in O.
    destruct o; [destruct O|auto]. }
  exists gs0, n0, d2, gs2. split; auto. pose proof R2 as (C2 & _ & b2 & gsx & X1 & X2 & _ & X4 & _).
  split; auto. split; [congruence|]. split; auto. split; auto.
  replace (ds_set N d2) with t in * by congruence.
  apply (srel_values _ _ _ _ 0%nat b2 data0 data); auto; cbn; auto. repeat split; auto.
Qed.

Lemma zslice_all {A} (l : list A) : zslice l 0 (zlen l) = l.
Proof. unfold zslice, zlen. cbn [Z.to_nat skipn]. rewrite Nat2Z.id. apply firstn_all. Qed.
Lemma ref_query_read h qv : ts_read N h (ref_query qv) = Ok qv.
Proof.
  unfold ts_read, ref_query. cbn [ts_src ts_start ts_len]. unfold window. pose proof (zlen_nonneg qv).
  destruct (Z.leb_spec (zlen qv) 0).
  - destruct qv; auto. unfold zlen in *. cbn in *. lia.
  - cbn [Z.ltb orb]. destruct (Z.ltb_spec (zlen qv) (0 + zlen qv)); [lia|]. now rewrite zslice_all.
Qed.

Theorem match_depends IO writable IO' writable' (dat pos : T -> Prop) σ1 i1 t1 data1 q1 ix1 a1 e1 σ2 i2 t2 data2 q2 ix2 a2 e2 thr qv :
  grouped_earlier N IO writable σ1 i1 thr t1 data1 -> grouped_earlier N IO' writable' σ2 i2 thr t2 data2 ->
  same_values N t1 t2 data1 data2 -> set_len t1 <= 2 ^ 30 -> Laws.lt N (half_of N thr) (ninf N) ->
  query_is N σ1 q1 ix1 a1 e1 qv -> query_is N σ2 q2 ix2 a2 e2 qv -> st_ratio N σ1 = st_ratio N σ2 ->
  same_answer N (api_match N σ1 i1 q1 ix1 a1 e1) (api_match N σ2 i2 q2 ix2 a2 e2).
Proof.
  intros G1 G2 V Hlen Hinf Q1 Q2 Er.
  assert (L1 : set_count t1 * set_len t1 <= zlen data1).
  { destruct G1 as (s & d & s1 & n & gs & ops & _ & (_ & b & _ & _ & _ & L) & <- & _). exact L. }
  destruct V as (V1 & V2 & V3).
  destruct (earlier_like IO writable dat pos σ1 i1 thr t1 data1 data1 G1 Hlen Hinf eq_refl L1) as (gs0 & n0 & d1 & gs1 & E0 & C1 & Et1 & Eg1 & R1 & S1).
  destruct (earlier_like IO' writable' dat pos σ2 i2 thr t2 data2 data1 G2 ltac:(lia) Hinf ltac:(congruence) ltac:(congruence))
    as (gs0' & n0' & d2 & gs2 & E0' & C2 & Et2 & Eg2 & R2 & S2).
  assert (Hr : ref_set t2 = ref_set t1) by (unfold ref_set; congruence). rewrite Hr in *.
  rewrite E0 in E0'. injection E0' as <- <-.
  destruct (query_read N _ _ _ _ _ _ Q1) as (dq1 & u1 & Cq1 & Gt1 & Rt1 & Lt1 & Ct1).
  destruct (query_read N _ _ _ _ _ _ Q2) as (dq2 & u2 & Cq2 & Gt2 & Rt2 & Lt2 & Ct2).
  unfold api_match. rewrite C1, C2. cbn [lift]. rewrite Cq1, Cq2. cbn [lift]. rewrite Gt1, Gt2. cbn [lift]. rewrite Eg1, Eg2, Et1, Et2, <- Er.
  assert (Vq : forall σ u, ts_read N (st_heap N σ) u = Ok qv -> ts_len u = zlen qv -> ts_cache u = None ->
            vrel N (ref_heap data1) (st_heap N σ) (ref_query qv) u).
  { intros σ u H1 H2 H3. split; [now rewrite H2|]. split; [now rewrite H1, ref_query_read|]. split; now apply cache_None. }
  pose proof (match_rel N _ _ _ _ S1 (st_ratio N σ1) gs0 gs1 (ref_query qv) u1 R1 (Vq _ _ Rt1 Lt1 Ct1)) as M1.
  pose proof (match_rel N _ _ _ _ S2 (st_ratio N σ1) gs0 gs2 (ref_query qv) u2 R2 (Vq _ _ Rt2 Lt2 Ct2)) as M2.
  revert M1 M2. generalize (global_getBestMatch N (ref_heap data1) (st_ratio N σ1) (ref_set t1) gs0 (ref_query qv)).
  intros r M1 M2.
  destruct (global_getBestMatch N (st_heap N σ1) (st_ratio N σ1) t1 gs1 u1) as [(g1 & c1)|x1|x1|],
           (global_getBestMatch N (st_heap N σ2) (st_ratio N σ1) t2 gs2 u2) as [(g2 & c2)|x2|x2|], r as [(g3 & c3)|x3|x3|];
    cbn [orel] in M1, M2; try tauto; cbn [lift same_answer]; try congruence; try exact I.
  destruct M1 as (_ & M1), M2 as (_ & M2). cbn [snd put_set with_sets st_heap] in *.
  destruct M1 as (((A1 & A2 & _) & A3 & A4 & A5) & A6), M2 as (((B1 & B2 & _) & B3 & B4 & B5) & B6).
  repeat split; congruence.
Qed.
End SessionIndep.
