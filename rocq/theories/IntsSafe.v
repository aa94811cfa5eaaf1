(** * The checked program on safe histories: no overflow when the sizes that the calls create fit 32 bits. *)
From Coq Require Import ZArith Bool Lia Reals SpecFloat Ascii String List.
From Verif Require Import Outcome Num Lemire Distance TimeSeries Text Dataset Groups Api Laws F64Base F64Laws Numeric Band.
From Verif Require Import GroupSpec FileSpec DecSpec NumSpec GroupFileSpec StreamProofs GroupProofs GlobalGroup SessionProofs SessionMatch MatchProofs SimProofs SafeMatch GroupFileProofs Properties_Groups Properties_GroupFile GroupFacts SafeSpec SafeProofs.
From Verif Require Import Ints IntsProofs IntsMatch IntsLoad.
From Verif Require Properties_Ints.
Import ListNotations.
Open Scope Z_scope.

Lemma ratio_mild x : ratio64 x -> mild F64 x.
Proof.
  intros R k r Hk E. destruct (Z.eq_dec k 0) as [->|Hn].
  - destruct R as ((_ & F) & _). unfold calculateWarpingBandSize, floor_int in E. destruct x as [sx| | |sx m e]; try contradiction; cbn in E; injection E as <-; lia.
  - assert (K : klen k) by (unfold klen, short in *; lia). rewrite (band64_Ok k x K R) in E. injection E as <-. pose proof (band64_range k x K R). lia.
Qed.

Section Steps32.
Context (writable : string -> bool) (files : string -> option text).
Local Notation step := (step F64 F64_IO writable).
Local Notation step32 := (step32 F64 F64_IO writable).
Local Notation safe := (safe writable files).
Local Notation good := (good writable files).
Local Notation check := (checkDatasetIndex F64).

Lemma load_same σ p m c seps : 0 <= c <= 2147483647 ->
  (forall contents, st_files F64 σ p = Some contents -> zlen (lines contents) <= 2147483647 /\ Properties_Ints.first_columns contents seps <= 2147483647 /\
     Properties_Ints.rows_read contents m * Properties_Ints.first_columns contents seps <= 2147483647) ->
  step32 σ (OpLoad F64 p m c seps) = step σ (OpLoad F64 p m c seps).
Proof.
  intros Hc H. destruct (st_files F64 σ p) as [t|] eqn:E.
  - destruct (H t eq_refl) as (A & B & C). eapply Properties_Ints.C67_load_in_range; eauto.
  - cbn [Ints.step32 Api.step]. unfold api_load32, api_load. rewrite E. reflexivity.
Qed.
Lemma save_same σ i p c : all_sized F64 σ -> step32 σ (OpSave F64 i p c) = step σ (OpSave F64 i p c).
Proof.
  intros A. cbn [Ints.step32 Api.step]. unfold api_save32, api_save. destruct (check σ i) as [d| | |] eqn:C; cbn [lift]; auto.
  destruct (negb _); auto. rewrite saveData32_in; auto. eapply check_sized; eauto.
Qed.
Lemma normalize_same past σ i : good past σ -> all_sized F64 σ -> step32 σ (OpNormalize F64 i) = step σ (OpNormalize F64 i).
Proof.
  intros G A. cbn [Ints.step32 Api.step]. unfold api_normalize32, api_normalize. destruct (check σ i) as [d| | |] eqn:C; cbn [lift]; auto.
  destruct (proj1 (proj2 (proj2 G) i d C)) as [(Hb & Hc & Hg)|(b & data & Hb & Hh & Hc & Hl & Hs)].
  - unfold normalize32, normalize. rewrite Hc, Z.mul_0_r. reflexivity.
  - rewrite normalize32_in; auto. eapply check_sized; eauto.
Qed.
Lemma paa_same past σ i n : safe past σ (OpPAA F64 i n) -> all_sized F64 σ -> step32 σ (OpPAA F64 i n) = step σ (OpPAA F64 i n).
Proof.
  intros S A. cbn [Ints.step32 Api.step]. unfold api_PAA32, api_PAA. destruct (check σ i) as [d| | |] eqn:C; cbn [lift]; auto.
  destruct (S d (check_has _ _ _ C)) as [Hn|Hl].
  - unfold PAA32, PAA. destruct (Z.leb_spec n 0); [reflexivity|lia].
  - rewrite PAA32_in; auto; [|lia]. eapply check_sized; eauto.
Qed.
Lemma group_same past σ i thr clock : good past σ -> all_sized F64 σ -> safe past σ (OpGroup F64 i thr clock) ->
  (forall σ' n, step σ (OpGroup F64 i thr clock) = Done F64 σ' (VInt F64 n) -> n <= 2147483647) ->
  (forall d, has_dataset F64 σ i d -> Properties_Ints.messages_fit σ clock (set_count (ds_set F64 d)) (set_len (ds_set F64 d))) ->
  step32 σ (OpGroup F64 i thr clock) = step σ (OpGroup F64 i thr clock).
Proof.
  intros G A S Hn HM. destruct (check_or σ i) as [(d & C)|(e & C)]; [|cbn [Ints.step32 Api.step]; unfold api_group32, api_group; rewrite C; reflexivity].
  destruct (proj1 (proj2 (proj2 G) i d C)) as [(Hb & Hc & Hg)|(b & data & Hb & Hh & Hc & Hl & Hs)].
  { cbn [Ints.step32 Api.step]. unfold api_group32, api_group. rewrite C. cbn [lift]. unfold isLoaded. rewrite Hb. reflexivity. }
  destruct (S d (check_has _ _ _ C) ltac:(congruence)) as (Ft & Hlen & Hlog).
  assert (D : dataset F64 σ i d data) by (split; auto; exists b; auto).
  destruct (group_returns F64 fin64 pos64 σ i thr d data clock D Hlen ltac:(lia) (half64_lt_inf thr Ft)) as (σ' & n & gs & E & Gd).
  { intros L HL Hd _. apply Hlog; auto. unfold due in Hd. apply orb_true_iff in Hd as [Hd|Hd]; auto. apply andb_true_iff in Hd as (_ & Hd). right. lia. }
  change (step σ (OpGroup F64 i thr clock) = Done F64 σ' (VInt F64 n)) in E. rewrite E.
  destruct (check_sized F64 _ _ _ A C) as (_ & _ & Z3). specialize (Z3 Hl). unfold int_max in Z3.
  eapply Properties_Ints.C67_group_in_range; eauto; [lia|]. apply HM. now apply check_has.
Qed.
Lemma saveGroup_same past σ i p b : good past σ -> all_sized F64 σ -> safe past σ (OpSaveGroup F64 i p b) ->
  step32 σ (OpSaveGroup F64 i p b) = step σ (OpSaveGroup F64 i p b).
Proof.
  intros G A S. cbn [Ints.step32 Api.step]. unfold api_saveGroup32, api_saveGroup. destruct (check σ i) as [d| | |] eqn:C; cbn [lift]; auto.
  destruct (ds_groups F64 d) as [gs|] eqn:Eg; auto. destruct (negb _); auto. destruct (init (ds_thr F64 d)) as [thr| | |]; cbn [lift]; auto.
  destruct (proj2 (proj2 (proj2 G) i d C) gs Eg) as (b' & gmf & A1 & A2 & A3 & (A4 & A5) & A6); [eapply S; [apply check_has; eauto|congruence]|].
  rewrite (global_save_same F64 F64_IO (ds_set F64 d)); auto; [eapply check_sized; eauto|].
  intros L ls HL El. destruct (A5 L HL) as (ls' & El' & Hw). rewrite El in El'. injection El' as <-. exists (gmf L). apply Hw.
Qed.
Lemma loadGroup_same past σ i p : good past σ -> all_sized F64 σ -> safe past σ (OpLoadGroup F64 i p) ->
  (forall σ' n, step σ (OpLoadGroup F64 i p) = Done F64 σ' (VInt F64 n) -> n <= 2147483647) ->
  step32 σ (OpLoadGroup F64 i p) = step σ (OpLoadGroup F64 i p).
Proof.
  intros G A S Hn. destruct (check_or σ i) as [(d & C)|(e & C)]; [|cbn [Ints.step32 Api.step]; unfold api_loadGroup32, api_loadGroup; rewrite C; reflexivity].
  pose proof (check_has _ _ _ C) as Hd. destruct (st_files F64 σ p) as [t|] eqn:Ef; [|cbn [Ints.step32 Api.step]; unfold api_loadGroup32, api_loadGroup; rewrite C; cbn [lift]; rewrite Ef; reflexivity].
  destruct (S d t Hd Ef) as [[(v & r & Hv & Hne)|(thr & cnt & len & r & (r1 & r2 & r3 & H1 & H2 & H3 & H4) & Hne)]|(Hbuf & Hlen & thr & name & f & Hg & Hnm & Hsz & Hme & Hlo & Hf)].
  - cbn [Ints.step32 Api.step]. unfold api_loadGroup32, api_loadGroup. rewrite C. cbn [lift]. rewrite Ef. unfold load_header.
    rewrite (extract_int _ _ _ Hv). destruct (extract _ _) as [f1 o1]. destruct (extract _ _) as [f2 o2]. destruct (extract _ _) as [f3 o3]. cbn [init bind].
    destruct (Z.eqb_spec v 1); [contradiction|]. reflexivity.
  - cbn [Ints.step32 Api.step]. unfold api_loadGroup32, api_loadGroup. rewrite C. cbn [lift]. rewrite Ef. unfold load_header.
    rewrite (extract_int _ _ _ H1). rewrite (ext_dbl _ _ _ H2), (extract_int _ _ _ H3), (extract_int _ _ _ H4). cbn [init bind Z.eqb Pos.eqb negb].
    destruct (Z.eqb_spec cnt (set_count (ds_set F64 d))); [|reflexivity]. destruct (Z.eqb_spec len (set_len (ds_set F64 d))); [|reflexivity]. exfalso. now destruct Hne.
  - destruct (proj1 (proj2 (proj2 G) i d C)) as [(Hb & _)|(b & data & Hb & Hh & Hc & Hl & Hs)]; [congruence|].
    assert (D : dataset F64 σ i d data) by (split; auto; exists b; auto).
    destruct (load_general writable σ i d data p t thr name f D Ef ltac:(lia) Hg Hnm Hsz) as [(_ & L & v & cs & c & HL & H1 & H2 & H3)|(k & sp & E & _)].
    { exfalso. apply H3. apply (cpos_range (ds_set F64 d) L ltac:(lia)). exact (Hme L v cs c HL H1 H2). }
    specialize (Hn _ _ E). clear E k sp. destruct Hg as (r & q1 & q2 & q3 & q4 & (r1 & r2 & r3 & H1 & H2 & H3 & H4) & W1 & W2 & W3 & W4).
    cbn [Ints.step32 Api.step]. unfold api_loadGroup32, api_loadGroup. rewrite C. cbn [lift]. rewrite Ef. unfold load_header.
    rewrite (extract_int _ _ _ H1). rewrite (ext_dbl _ _ _ H2), (extract_int _ _ _ H3), (extract_int _ _ _ H4). cbn [init bind Z.eqb Pos.eqb negb]. rewrite !Z.eqb_refl. cbn [negb lift].
    rewrite (global_load_same (ds_set F64 d) (check_sized F64 _ _ _ A C) ltac:(lia) f r q1 q2 name q3 q4); auto.
Qed.
Lemma match_same past σ r q ix a e : good past σ -> all_sized F64 σ -> safe past σ (OpMatch F64 r q ix a e) ->
  step32 σ (OpMatch F64 r q ix a e) = step σ (OpMatch F64 r q ix a e).
Proof.
  intros G A S. cbn [Ints.step32 Api.step]. unfold api_match32, api_match. destruct (check σ r) as [d| | |] eqn:C; cbn [lift]; auto.
  destruct (check σ q) as [dq| | |] eqn:Cq; cbn [lift]; auto.
  assert (Y : getTimeSeries32 F64 (ds_set F64 dq) ix a e = getTimeSeries F64 (ds_set F64 dq) ix a e).
  { destruct (proj1 (proj2 (proj2 G) q dq Cq)) as [(_ & Hc & _)|(b & data & Hb & Hh & Hc & Hl & Hs)]; [|apply series_same; auto; eapply check_sized; eauto].
    unfold getTimeSeries32, getTimeSeries. rewrite Hc. destruct (Z.ltb_spec ix 0); [reflexivity|]. destruct (Z.leb_spec 0 ix); [reflexivity|lia]. }
  rewrite Y. destruct (getTimeSeries F64 (ds_set F64 dq) ix a e) as [t0| | |] eqn:Et; cbn [lift]; auto.
  destruct (ds_groups F64 d) as [gs|] eqn:Eg; auto.
  destruct (query_ex writable files past σ q dq ix a e t0 G Cq Et) as (qv & Q).
  destruct (query_read F64 _ _ _ _ _ _ Q) as (dq' & t & Cq' & Gt & Rt & Lt & Ct). rewrite Cq in Cq'. injection Cq' as <-. rewrite Et in Gt. injection Gt as ->.
  destruct (Z_le_gt_dec (zlen qv) 1) as [Hsm|Hbig].
  { unfold global_getBestMatch32, global_getBestMatch. rewrite Lt. destruct (Z.leb_spec (zlen qv) 1); [reflexivity|lia]. }
  destruct (S d qv (check_has _ _ _ C) ltac:(congruence) Q ltac:(lia)) as (Fr & Hcnt & Hql & _).
  destruct (proj2 (proj2 (proj2 G) r d C) gs Eg Fr) as (b & gmf & A1 & A2 & A3 & (A4 & A5) & A6).
  rewrite (global_match_same F64 (ds_set F64 d)); auto.
  - eapply check_sized; eauto.
  - unfold short. lia.
  - apply ratio_mild. apply G.
  - split; [exact A4|]. intros L ls HL El. destruct (A5 L HL) as (ls' & El' & Hk & Hr). rewrite El in El'. injection El' as <-. exists (gmf L). split; [exact Hk|].
    eapply Forall_impl; [|exact Hr]. intros g ([(c & _ & (_ & _ & _ & _ & Se))|(v & _ & Hv & _)] & _); unfold short.
    + cbn in Se. lia.
    + rewrite Hv. lia.
  - unfold short. rewrite Lt. lia.
Qed.
End Steps32.
