(** * Proofs about safe calls: each keeps an invariant of the session. *)
From Coq Require Import ZArith Bool Lia Reals Lra SpecFloat String List.
From Flocq Require Import Core.
From Verif Require Import Outcome Num Lemire Distance TimeSeries Text Dataset Groups Api Laws F64Base F64Laws Spec Numeric Band.
From Verif Require Import TsProofs GroupSpec GroupProofs GlobalGroup GroupFacts MatchProofs SessionProofs SessionMatch DataProofs NormProofs FileSpec LoadProofs DecSpec NumSpec GroupFileSpec GroupFileProofs StreamProofs RepMatch Properties_Load Properties_GroupFile SafeMatch SafeSpec.
Import ListNotations.
Open Scope Z_scope.

(** ** Saving groups. *)
Lemma saveGroup_any (h : heap F64) (s : tset) L ls gm gi ms g v : set_len s <= 2 ^ 30 -> 1 <= L <= set_len s ->
  links F64 s L ls gm -> zget gm gi = Ok ms -> zget (ls_groups F64 ls) gi = Ok g -> ts_read F64 h (g_centroid F64 g) = Ok v ->
  exists t, saveGroup F64 F64_IO h (ls_map F64 ls) g = Ok t.
Proof.
  intros Hlen HL Hk Hi Hg Rv. destruct (links_get F64 s L ls gm gi ms Hk Hi) as (g' & Eg & G1 & G2 & G3 & G4 & G6 & _). rewrite Hg in Eg. injection Eg as <-.
  unfold saveGroup, printData. rewrite Rv. cbn [bind]. set (w := while_ _ _ _ _).
  assert (P : Post w (fun _ => True)).
  { unfold w. eapply Post_conseq; [eapply (walk_links F64 s Hlen L HL ls gm gi ms _ _ fst (fun _ _ => True)); eauto|auto].
    intros rem c (cur, acc) _ _ Ecur Vc Hp. cbn [fst] in Ecur. subst cur. rewrite G3, Hp. cbn [bind]. apply Post_Ok. auto. }
  destruct (Post_inv _ _ P) as ((cur & acc) & -> & _). cbn [bind]. eauto.
Qed.
Lemma save_any ok (h : heap F64) (s : tset) b data gmf gs flag : heap_get F64 h b = Ok data -> set_len s <= 2 ^ 30 ->
  0 <= set_count s -> set_count s * set_len s <= zlen data ->
  weak_spaces F64 ok s b gmf (gs_spaces F64 gs) -> exists t, global_saveGroups F64 F64_IO h gs flag = Ok t.
Proof.
  intros Hh Hl Hc Hs (Hz & Hsp).
  assert (X : Post (global_saveGroups F64 F64_IO h gs flag) (fun _ => True)).
  { unfold global_saveGroups. eapply Post_conseq; [apply (for_rule (fun _ _ => True)); auto|auto].
    intros L out HL _. destruct (Hsp L ltac:(lia)) as (ls & E & (H & F)). rewrite E. cbn [bind].
    assert (Y : Post (local_saveGroups F64 F64_IO h ls flag) (fun _ => True)).
    { unfold local_saveGroups. destruct flag; [exact I|]. eapply Post_conseq; [apply (for_each_rule (fun _ _ => True) _ (ls_groups F64 ls) [])|auto]; auto.
      intros pre g post out' Eg _. cbn [app] in Eg. assert (Gg : zget (ls_groups F64 ls) (zlen pre) = Ok g).
      { rewrite Eg. rewrite zget_app_r by lia. now rewrite Z.sub_diag. }
      destruct (zget_Ok (gmf L) (zlen pre)) as (ms & Em). { destruct H as (_ & _ & _ & El & _). apply zget_inv in Gg. lia. }
      assert (R : exists v, ts_read F64 h (g_centroid F64 g) = Ok v).
      { rewrite Forall_forall in F. destruct (F g) as ([(c & Vc & Sc)|(v & Rv & _)] & _); [eapply zget_in; eauto| |eauto].
        exists (vals F64 s data L c). rewrite <- (same_read F64 h _ _ Sc). apply read_view; auto. lia. }
      destruct R as (v & Rv). destruct (saveGroup_any h s L ls (gmf L) (zlen pre) ms g v Hl ltac:(lia) H Em Gg Rv) as (t & ->). exact I. }
    apply Post_inv in Y as (t & -> & _). exact I. }
  apply Post_inv in X as (t & -> & _). eauto.
Qed.

(** ** Normalising values of any kind. *)
Lemma normalize_any (h : heap F64) (s : tset) b data : set_buf s = Some b -> heap_get F64 h b = Ok data -> 0 <= set_count s -> 0 <= set_len s ->
  set_count s * set_len s <= zlen data ->
  (exists e, normalize F64 h s = Throw e) \/
  exists data' m, normalize F64 h s = Ok (list_set h b (Some data'), mkSet (Some b) (set_len s) (set_count s) (set_path s) true, m) /\ zlen data' = zlen data.
Proof.
  intros Hb Hh Hc Hl Hs. unfold normalize. destruct (Z.eqb_spec (set_len s * set_count s) 0) as [E|E]; [left; eauto|].
  destruct (Z.ltb_spec (set_len s) 0); [lia|]. rewrite Hb, Hh. cbn [bind]. right.
  assert (P : Post (for_ 0 (set_count s) (minmax_row F64 data (set_len s * set_count s) (set_len s)) (ninf F64, nninf F64)) (fun _ => True)).
  { eapply Post_conseq; [apply (for_rule (fun _ _ => True)); auto|auto]. intros t (mn & mx) Ht _. unfold minmax_row.
    assert (Hle : (t + 1) * set_len s <= zlen data) by nia. assert (0 <= t * set_len s) by nia. assert (1 <= set_len s) by nia.
    set (i0 := if Z.rem _ 2 =? 0 then 0 else 1).
    assert (Hi0 : i0 = 0 \/ i0 = 1) by (unfold i0; destruct (_ =? 0); auto).
    eapply (Post_seq (fun _ => True)).
    - destruct (i0 =? 1); [|exact I]. destruct (zget_Ok data (t * set_len s)) as (x & ->); [lia|]. exact I.
    - intros (mn1 & mx1) _. eapply Post_conseq; [apply (for_rule (fun _ _ => True)); auto|auto].
      intros k (mn2 & mx2) Hk _. unfold minmax_pair.
      assert (2 * k + 1 < set_len s - i0).
      { pose proof (Z.div_mod (set_len s - i0) 2 ltac:(lia)). pose proof (Z.mod_pos_bound (set_len s - i0) 2 ltac:(lia)). lia. }
      destruct (zget_Ok data (t * set_len s + (i0 + 2 * k))) as (x & ->); [nia|].
      destruct (zget_Ok data (t * set_len s + (i0 + 2 * k + 1))) as (y & ->); [nia|]. cbn [bind]. destruct (nltb F64 y x); exact I. }
  apply Post_inv in P as ((mn & mx) & -> & _). cbn [bind].
  assert (M : forall f, exists data', map_data F64 f (set_count s) (set_len s) data = Ok data' /\ zlen data' = zlen data).
  { intros f. pose proof (map_data_spec F64 f (set_count s) (set_len s) data Hc Hl Hs) as P. apply Post_inv in P as (d' & Ed & Hz & _). eauto. }
  destruct (neqb F64 _ _); [destruct (negb _)|].
  - destruct (M (fun _ => nzero F64)) as (d' & -> & Hz). cbn [bind]. eauto.
  - cbn [bind]. eauto.
  - destruct (M (fun x => ndiv F64 (nsub F64 x mn) (nsub F64 mx mn))) as (d' & -> & Hz). cbn [bind]. eauto.
Qed.

(** ** The invariant. *)
Local Notation st := (st F64).
Local Notation check := (checkDatasetIndex F64).

Definition shape (h : heap F64) (d : dset F64) : Prop :=
  (set_buf (ds_set F64 d) = None /\ set_count (ds_set F64 d) = 0 /\ ds_groups F64 d = None) \/
  exists b data, set_buf (ds_set F64 d) = Some b /\ heap_get F64 h b = Ok data /\
    0 <= set_count (ds_set F64 d) /\ 0 <= set_len (ds_set F64 d) /\ set_count (ds_set F64 d) * set_len (ds_set F64 d) <= zlen data.
Section Steps.
Context (writable : string -> bool) (files : string -> option text).
Local Notation step := (step F64 F64_IO writable).
Local Notation fresh := (fresh writable files).
Local Notation safe := (safe writable files).
Local Notation run := (run F64 F64_IO writable).
Definition searchable (d : dset F64) (gs : gspace F64) : Prop :=
  exists b gmf, set_buf (ds_set F64 d) = Some b /\ set_len (ds_set F64 d) <= 2 ^ 30 /\ ds_thr F64 d <> None /\
    weak_spaces F64 (Forall small64) (ds_set F64 d) b gmf (gs_spaces F64 gs) /\
    forall L, 2 <= L <= set_len (ds_set F64 d) -> 1 <= set_count (ds_set F64 d) -> gmf L <> [].
Definition dinv (h : heap F64) (past : list (op F64)) (i : Z) (d : dset F64) : Prop :=
  shape h d /\ forall gs, ds_groups F64 d = Some gs -> fresh i past -> searchable d gs.
Definition good (past : list (op F64)) (σ : st) : Prop :=
  wf F64 σ /\ ratio64 (st_ratio F64 σ) /\ forall i d, check σ i = Ok d -> dinv (st_heap F64 σ) past i d.

Lemma fresh_snoc i past o : fresh i (past ++ [o]) ->
  regroups writable files i past o \/ (fresh i past /\ match o with OpPAA _ j n => j <> i \/ n <= 0 | _ => True end).
Proof.
  intros (p1 & o1 & p2 & E & Ho & F). destruct (exists_last (l := o1 :: p2)) as (p3 & x & E3); [discriminate|].
  rewrite E3, app_assoc in E. apply app_inj_tail in E as (-> & ->). destruct p3 as [|y p3].
  - injection E3 as <- _. left. now rewrite app_nil_r.
  - injection E3 as <- ->. right. apply Forall_app in F as (F1 & F2). split; [|now inversion F2].
    exists p1, o1, p3. auto.
Qed.
Lemma dinv_keep h h' past past' i d : dinv h past i d -> (forall b, set_buf (ds_set F64 d) = Some b -> heap_get F64 h' b = heap_get F64 h b) ->
  (fresh i past' -> fresh i past) -> dinv h' past' i d.
Proof.
  intros (S & G) Hh Hf. split.
  - destruct S as [S|(b & data & Hb & Hd & S)]; [now left|]. right. exists b, data. rewrite (Hh b Hb). auto.
  - intros gs Eg Fr. exact (G gs Eg (Hf Fr)).
Qed.
Lemma check_has (σ : st) i d : check σ i = Ok d -> has_dataset F64 σ i d.
Proof. intros H. now apply check_iff in H. Qed.
Lemma check_or (σ : st) i : (exists d, check σ i = Ok d) \/ (exists e, check σ i = Throw e).
Proof.
  unfold checkDatasetIndex. destruct (_ || _); [eauto|]. destruct (nth_error _ _) as [[d|]|]; eauto.
Qed.

Definition goes (past : list (op F64)) (σ : st) (o : op F64) : Prop :=
  exists σ', after F64 (step σ o) = Some σ' /\ good (past ++ [o]) σ'.

(** Nothing changes but the files and the ratio. *)
Lemma good_same past σ o σ' : good past σ -> same_sets F64 σ σ' -> ratio64 (st_ratio F64 σ') ->
  (forall i d, check σ i = Ok d -> fresh i (past ++ [o]) -> fresh i past \/ ds_groups F64 d = None) -> good (past ++ [o]) σ'.
Proof.
  intros (W & R & D) S R' Hf. split; [eapply same_sets_wf; eauto|]. split; auto. intros i d C.
  destruct S as (E1 & E2). rewrite (check_ext F64 σ' σ E1) in C. rewrite E2. pose proof (D i d C) as (D1 & D2). split; auto. intros gs Eg Fr.
  destruct (Hf i d C Fr) as [Fr'|Hn]; [auto|congruence].
Qed.
Definition no_groups (o : op F64) : Prop := match o with OpGroup _ _ _ _ | OpLoadGroup _ _ _ => False | _ => True end.
Lemma no_groups_re i past o : no_groups o -> ~ regroups writable files i past o.
Proof. intros H [(thr & clock & ->)|(p & s & s' & v & -> & _)]; exact H. Qed.
Lemma good_quiet past σ o σ' : good past σ -> same_sets F64 σ σ' -> ratio64 (st_ratio F64 σ') ->
  no_groups o -> good (past ++ [o]) σ'.
Proof.
  intros G S R Ho. apply (good_same past σ); auto. intros i d _ Fr. left. apply fresh_snoc in Fr as [Fr|(Fr & _)]; auto.
  now apply no_groups_re in Fr.
Qed.
(** Only dataset [i] changes. *)
Lemma good_at past σ o σ' i : good past σ -> after F64 (step σ o) = Some σ' -> ratio64 (st_ratio F64 σ') ->
  (forall j, j <> i -> quiet F64 j o /\ match_target F64 o <> Some j) -> (forall j, j <> i -> check σ' j = check σ j) ->
  (forall d, check σ' i = Ok d -> dinv (st_heap F64 σ') (past ++ [o]) i d) -> good (past ++ [o]) σ'.
Proof.
  intros (W & R & D) A R' Q C Hi. destruct (step_wf F64 F64_IO writable σ o σ' W A) as (W' & K). split; auto. split; auto.
  intros j d Cj. destruct (Z.eq_dec j i) as [->|Hn]; [auto|]. destruct (Q j Hn) as (Q1 & Q2). rewrite (C j Hn) in Cj.
  destruct (K j Q1 Q2 d Cj) as (_ & Hh). apply (dinv_keep (st_heap F64 σ) _ past); auto.
  intros Fr. apply fresh_snoc in Fr as [[(thr & clock & ->)|(p & s & s' & v & -> & _)]|(Fr & _)]; auto; cbn in Q1; congruence.
Qed.

Lemma load_any contents m c seps : (forall first rest, table seps m contents (first :: rest) -> 0 <= c <= zlen first) ->
  (exists e, loadData F64 F64_IO contents m c seps = Throw e) \/
  loadData F64 F64_IO contents m c seps = Ok (None, 0, -1 - c) \/
  exists data count len, loadData F64 F64_IO contents m c seps = Ok (Some data, count, len) /\ 0 <= count /\ 0 <= len /\ count * len <= zlen data.
Proof.
  intros H. remember (map (tokens seps) (rows_read m (lines contents))) as rows eqn:Er. destruct rows as [|r0 rows].
  - right. left. apply loadData_empty. destruct (rows_read m (lines contents)); [reflexivity|discriminate].
  - assert (Hc : 0 <= c <= zlen r0) by (eapply H; apply table_rows; exact Er).
    assert (D : forall rows, Forall (good_row F64 F64_IO c (zlen r0)) rows \/ Exists (bad_row F64 F64_IO c (zlen r0)) rows).
    { clear - r0. induction rows as [|r rows [IH|IH]]; auto. destruct (Z.eq_dec (zlen r) (zlen r0)) as [E|E]; [|right; left; left; auto].
      destruct (classic_tok F64 F64_IO c C37_stod_ok r 0) as [K|K]; [left; constructor; auto; split; auto|right; left; right; auto]. }
    destruct (D (r0 :: rows)) as [G|B].
    + right. right. destruct (loadData_ok F64 F64_IO contents m c seps r0 rows (proj1 Hc) (eq_sym Er) G) as (data & E & Hz & _).
      exists data, (zlen (r0 :: rows)), (zlen r0 - c). pose proof (zlen_nonneg (r0 :: rows)). split; auto. split; auto. split; [lia|]. change (num F64) with spec_float in *. nia.
    + left. destruct (loadData_bad F64 F64_IO contents m c seps r0 rows C37_stod_ok (proj1 Hc) (eq_sym Er) B) as (msg & E). eauto.
Qed.

Lemma load_goes past σ p m c seps : good past σ -> safe past σ (OpLoad F64 p m c seps) -> goes past σ (OpLoad F64 p m c seps).
Proof.
  intros G S. unfold goes. cbn [Api.step].
  assert (X : forall e, api_load F64 F64_IO σ p m c seps = Exn F64 σ e -> exists σ', after F64 (api_load F64 F64_IO σ p m c seps) = Some σ' /\ good (past ++ [OpLoad F64 p m c seps]) σ').
  { intros e ->. exists σ. split; auto. apply (good_quiet past σ); [auto|split; auto|apply G|exact I]. }
  destruct (st_files F64 σ p) as [contents|] eqn:Ef; [|eapply X; unfold api_load; rewrite Ef; reflexivity].
  assert (Y : forall data cnt len, loadData F64 F64_IO contents m c seps = Ok (data, cnt, len) ->
     match data with None => cnt = 0 | Some l => 0 <= cnt /\ 0 <= len /\ cnt * len <= zlen l end ->
     exists σ', after F64 (api_load F64 F64_IO σ p m c seps) = Some σ' /\ good (past ++ [OpLoad F64 p m c seps]) σ').
  { intros data cnt len E Hd. destruct (load_step F64 F64_IO writable σ p contents m c seps data cnt len Ef E) as (σ' & n & d & Es & _).
    cbn [Api.step] in Es. pose proof Es as Ei. apply load_inv in Ei as (d1 & contents' & data' & Ef' & El & (_ & C & Co & _ & _ & Hg & Hr & _) & _ & _ & _ & Hb).
    rewrite Ef in Ef'. injection Ef' as <-. rewrite E in El. injection El as -> -> ->. rewrite Es. exists σ'. split; [reflexivity|].
    apply (good_at past σ _ σ' (Z.of_nat (first_free F64 (st_sets F64 σ)))); auto.
    - cbn [Api.step]. now rewrite Es.
    - rewrite Hr. apply G.
    - intros j _. split; [exact I|discriminate].
    - intros d2 C2. rewrite C in C2. injection C2 as <-. split; [|intros gs Eg; congruence]. destruct data' as [l|].
      + right. destruct Hb as (Hb & Hh). exists (length (st_heap F64 σ)), l. split; auto. split; [rewrite Hh; apply heap_get_alloc|]. exact Hd.
      + left. auto. }
  destruct (load_any contents m c seps) as [(e & E)|[E|(data & cnt & len & E & Hd)]].
  - intros first rest Ht. eapply S; eauto.
  - eapply X. unfold api_load. rewrite Ef, E. reflexivity.
  - eapply Y; [exact E|reflexivity].
  - eapply Y; [exact E|exact Hd].
Qed.

Lemma save_goes past σ i p c : good past σ -> goes past σ (OpSave F64 i p c).
Proof.
  intros G. unfold goes. cbn [Api.step]. unfold api_save.
  assert (X : exists σ', Some σ = Some σ' /\ good (past ++ [OpSave F64 i p c]) σ').
  { exists σ. split; auto. apply (good_quiet past σ); [auto|split; auto|apply G|exact I]. }
  destruct (check_or σ i) as [(d & C)|(e & C)]; rewrite C; cbn [lift]; [|exact X].
  destruct (writable p); cbn [negb]; [|exact X].
  assert (P : Post (saveData F64 F64_IO (st_heap F64 σ) (ds_set F64 d) c) (fun _ => True)).
  { unfold saveData. eapply Post_conseq; [apply (for_rule (fun _ _ => True)); auto|auto]. intros t out Ht _.
    destruct (proj1 (proj2 (proj2 G) i d C)) as [(_ & Hc & _)|(b & data & Hb & Hh & Hc & Hl & Hs)]; [lia|].
    eapply (Post_seq (fun _ => True)); [|intros; exact I].
    eapply Post_conseq; [apply (for_rule (fun _ _ => True)); auto|auto]. intros j out' Hj _. unfold set_data. rewrite Hb, Hh. cbn [bind].
    destruct (zget_Ok data (t * set_len (ds_set F64 d) + j)) as (x & ->); [nia|]. exact I. }
  apply Post_inv in P as (t & -> & _). cbn [lift after]. eexists. split; [reflexivity|].
  apply (good_quiet past σ); [auto|split; auto|apply G|exact I].
Qed.

Lemma unload_goes past σ i : good past σ -> goes past σ (OpUnload F64 i).
Proof.
  intros G. unfold goes. cbn [Api.step].
  destruct (api_unload F64 σ i) as [σ' v|σ' e|u|] eqn:E.
  - exists σ'. split; auto. pose proof E as Ei. apply unload_inv in Ei as (d & C & Cn & Co & _ & _ & _ & Hr & _).
    apply (good_at past σ _ σ' i); auto.
    + cbn [Api.step]. now rewrite E.
    + rewrite Hr. apply G.
    + intros j Hj. split; [cbn; congruence|discriminate].
    + intros d' C'. congruence.
  - exists σ'. split; auto. unfold api_unload in E. apply lift_exn in E as [(_ & ->)|(d & _ & E)]; [|discriminate].
    apply (good_quiet past σ); [auto|split; auto|apply G|exact I].
  - unfold api_unload in E. destruct (check_or σ i) as [(d & C)|(e & C)]; rewrite C in E; discriminate.
  - unfold api_unload in E. destruct (check_or σ i) as [(d & C)|(e & C)]; rewrite C in E; discriminate.
Qed.

Lemma normalize_goes past σ i : good past σ -> goes past σ (OpNormalize F64 i).
Proof.
  intros G. unfold goes. cbn [Api.step]. unfold api_normalize.
  assert (X : exists σ', Some σ = Some σ' /\ good (past ++ [OpNormalize F64 i]) σ').
  { exists σ. split; auto. apply (good_quiet past σ); [auto|split; auto|apply G|exact I]. }
  destruct (check_or σ i) as [(d & C)|(e & C)]; rewrite C; cbn [lift]; [|exact X].
  pose proof (proj2 (proj2 G) i d C) as (Sh & Gr). pose proof (check_inv F64 _ _ _ C) as (Hi & _).
  destruct Sh as [(Hb & Hc & Hg)|(b & data & Hb & Hh & Hc & Hl & Hs)].
  { unfold normalize. rewrite Hc, Z.mul_0_r. exact X. }
  destruct (normalize_any (st_heap F64 σ) (ds_set F64 d) b data Hb Hh Hc Hl Hs) as [(e & En)|(data' & (mn & mx) & En & Hz)]; rewrite En; cbn [lift]; [exact X|].
  set (σ' := put_set F64 _ _ _). exists σ'. split; [reflexivity|]. apply (good_at past σ _ σ' i); auto.
  - cbn [Api.step]. unfold api_normalize. rewrite C. cbn [lift]. rewrite En. reflexivity.
  - apply G.
  - intros j Hj. split; [cbn; congruence|discriminate].
  - intros j Hj. unfold σ'. rewrite check_put_other by (auto; lia). reflexivity.
  - intros d' C'. unfold σ' in C'. rewrite check_put in C' by exact Hi. injection C' as <-. split.
    + right. exists b, data'. cbn [ds_set set_buf set_count set_len]. split; auto. split; [|rewrite Hz; auto]. exact (heap_get_set_same F64 _ b data data' Hh).
    + intros gs Eg Fr. cbn [ds_groups] in Eg. apply fresh_snoc in Fr as [H|(Fr & _)]; [now apply no_groups_re in H|].
      destruct (Gr gs Eg Fr) as (b' & gmf & A1 & A2 & A3 & A4 & A5). exists b', gmf. cbn [ds_set set_buf set_len ds_thr]. rewrite Hb in A1. do 3 (split; [assumption|]). split; [|exact A5].
      exact A4.
Qed.

Lemma paa_goes past σ i n : good past σ -> safe past σ (OpPAA F64 i n) -> goes past σ (OpPAA F64 i n).
Proof.
  intros G S. unfold goes. cbn [Api.step]. unfold api_PAA.
  assert (X : exists σ', Some σ = Some σ' /\ good (past ++ [OpPAA F64 i n]) σ').
  { exists σ. split; auto. apply (good_quiet past σ); [auto|split; auto|apply G|exact I]. }
  destruct (check_or σ i) as [(d & C)|(e & C)]; rewrite C; cbn [lift]; [|exact X].
  pose proof (proj2 (proj2 G) i d C) as (Sh & Gr). pose proof (check_inv F64 _ _ _ C) as (Hi & _).
  destruct (Z_le_gt_dec n 0) as [Hn|Hn].
  { unfold PAA. destruct (Z.leb_spec n 0); [|lia]. exact X. }
  assert (Hl1 : 1 <= set_len (ds_set F64 d)) by (destruct (S d (check_has _ _ _ C)); lia).
  assert (P : exists h' new len b, PAA F64 (st_heap F64 σ) (ds_set F64 d) n = Ok (h', mkSet (Some b) len (set_count (ds_set F64 d)) (set_path (ds_set F64 d)) (set_norm (ds_set F64 d))) /\
     heap_get F64 h' b = Ok new /\ zlen new = set_count (ds_set F64 d) * len /\ 0 <= len /\ 0 <= set_count (ds_set F64 d)).
  { assert (Hm : 0 <= (set_len (ds_set F64 d) + n - 1) / n) by (apply Z.div_pos; lia).
    destruct Sh as [(Hb & Hc & Hg)|(b & data & Hb & Hh & Hc & Hl & Hs)].
    - unfold PAA. rewrite Hc, Hb. rewrite (paa_len (set_len (ds_set F64 d)) n) by lia. destruct (Z.leb_spec n 0); [lia|]. rewrite Z.mul_0_l.
      destruct (Z.leb_spec (set_len (ds_set F64 d)) 0); [lia|]. cbn. eexists _, [], _, _. split; [reflexivity|]. split; [exact (heap_get_alloc F64 (st_heap F64 σ) [])|]. split; [reflexivity|]. split; [exact Hm|lia].
    - destruct (PAA_spec F64 (st_heap F64 σ) (ds_set F64 d) n b data ltac:(lia) Hl1 Hc Hb Hh Hs) as (new & E & Hz & _).
      eexists _, new, _, _. split; [exact E|]. split; [|split; [exact Hz|split; [exact Hm|lia]]].
      rewrite <- (hfree_length F64 (st_heap F64 σ) (Some b)). exact (heap_get_alloc F64 _ new). }
  destruct P as (h' & new & len & b & E & Hh & Hz & Hl & Hc). rewrite E. cbn [lift].
  set (σ' := put_set F64 _ _ _). exists σ'. split; [reflexivity|]. apply (good_at past σ _ σ' i); auto.
  - cbn [Api.step]. unfold api_PAA. rewrite C. cbn [lift]. rewrite E. reflexivity.
  - apply G.
  - intros j Hj. split; [cbn; congruence|discriminate].
  - intros j Hj. unfold σ'. rewrite check_put_other by (auto; lia). reflexivity.
  - intros d' C'. unfold σ' in C'. rewrite check_put in C' by exact Hi. injection C' as <-. split.
    + right. exists b, new. cbn [ds_set set_buf set_count set_len]. split; auto. split; [exact Hh|]. rewrite Hz. split; auto. split; auto. lia.
    + intros gs Eg Fr. apply fresh_snoc in Fr as [H|(_ & [H|H])]; [now apply no_groups_re in H|congruence|lia].
Qed.

Lemma group_goes past σ i thr clock : good past σ -> safe past σ (OpGroup F64 i thr clock) -> goes past σ (OpGroup F64 i thr clock).
Proof.
  intros G S. unfold goes.
  assert (X : (forall d, check σ i = Ok d -> ds_groups F64 d = None) -> exists σ', Some σ = Some σ' /\ good (past ++ [OpGroup F64 i thr clock]) σ').
  { intros Hg. exists σ. split; auto. apply (good_same past σ); [auto|split; auto|apply G|]. intros j d C Fr.
    apply fresh_snoc in Fr as [[(thr' & clock' & [= -> _ _])|(? & ? & ? & ? & ? & _)]|(Fr & _)]; auto; discriminate. }
  destruct (check_or σ i) as [(d & C)|(e & C)]; [|cbn [Api.step]; unfold api_group; rewrite C; cbn [lift]; apply X; congruence].
  pose proof (proj2 (proj2 G) i d C) as (Sh & Gr). pose proof (check_inv F64 _ _ _ C) as (Hi & _).
  destruct Sh as [(Hb & Hc & Hg)|(b & data & Hb & Hh & Hc & Hl & Hs)].
  { cbn [Api.step]. unfold api_group. rewrite C. cbn [lift]. unfold isLoaded. rewrite Hb. cbn [negb after]. apply X. congruence. }
  destruct (S d (check_has _ _ _ C) ltac:(congruence)) as (Ft & Hlen & Hlog).
  assert (D : dataset F64 σ i d data) by (split; auto; exists b; auto).
  pose proof (half64_lt_inf thr Ft) as Hinf.
  destruct (group_returns F64 fin64 pos64 σ i thr d data clock D Hlen ltac:(lia) Hinf) as (σ' & n & gs & E & Gd).
  { intros L HL Hd _. apply Hlog; auto. unfold due in Hd. apply orb_true_iff in Hd as [Hd|Hd]; auto. apply andb_true_iff in Hd as (_ & Hd). right. lia. }
  exists σ'. cbn [Api.step]. rewrite E. split; [reflexivity|].
  destruct (grouped_ready F64 fin64 pos64 σ i thr σ' n gs d data Gd D Hlen Hinf) as (gmf & d' & R & E1 & E2 & E3).
  destruct (api_group_inv F64 _ _ _ _ _ _ _ _ Gd D) as (Hh' & C' & clock' & Eg).
  apply (good_at past σ _ σ' i); auto.
  - cbn [Api.step]. now rewrite E.
  - replace (st_ratio F64 σ') with (st_ratio F64 σ); [apply G|]. clear - E C. unfold api_group in E. rewrite C in E. cbn [lift] in E. destruct (isLoaded _); cbn [negb] in E; [|discriminate].
    destruct (global_group _ _ _ _ _ _ _) as [(g & k)| | |]; try discriminate. injection E as <- _. now destruct (2 <=? _).
  - intros j Hj. split; [cbn; congruence|discriminate].
  - intros j Hj. clear - E C Hj. unfold api_group in E. pose proof (check_inv F64 _ _ _ C) as (Hi & _). rewrite C in E. cbn [lift] in E. destruct (isLoaded _); cbn [negb] in E; [|discriminate].
    destruct (global_group _ _ _ _ _ _ _) as [(g & k)| | |]; try discriminate. injection E as <- _.
    destruct (2 <=? _); [rewrite (check_ext F64 (with_logged F64 (put_set F64 σ i _) true) (put_set F64 σ i _) eq_refl)|]; rewrite check_put_other by (auto; lia); reflexivity.
  - intros d1 C1. destruct R as (C2 & _ & b' & gs' & B1 & B2 & B3 & B4 & B5 & B6 & B7 & B8). rewrite C2 in C1. injection C1 as <-. split.
    + right. exists b', data. rewrite E1 in *. auto.
    + intros gs1 Egs _. rewrite E3 in B5. injection B5 as <-. rewrite E3 in Egs. injection Egs as <-.
      exists b', gmf. split; auto. split; [rewrite E1; auto|]. split; [congruence|]. split.
      2: { intros L HL Hc1 E0. assert (Hin : In (0, 0) (concat (gmf L))) by (apply B7; [auto|]; unfold valid; cbn [fst snd]; lia). rewrite E0 in Hin. destruct Hin. }
      destruct B6 as (B61 & B62). split; auto. intros L HL. destruct (B62 L HL) as (ls & El & Hls). exists ls. split; auto. eapply ls_weak; eauto.
      pose proof (group_bare F64 _ _ _ _ _ _ _ _ Eg L ls El) as FB. eapply Forall_impl; [|exact FB]. intros g Hg. unfold cache_shape. unfold bare in Hg. rewrite Hg. exact I.
Qed.

Lemma saveGroup_goes past σ i p flag : good past σ -> safe past σ (OpSaveGroup F64 i p flag) -> goes past σ (OpSaveGroup F64 i p flag).
Proof.
  intros G S. unfold goes. cbn [Api.step]. unfold api_saveGroup.
  assert (X : exists σ', Some σ = Some σ' /\ good (past ++ [OpSaveGroup F64 i p flag]) σ').
  { exists σ. split; auto. apply (good_quiet past σ); [auto|split; auto|apply G|exact I]. }
  destruct (check_or σ i) as [(d & C)|(e & C)]; rewrite C; cbn [lift]; [|exact X].
  destruct (ds_groups F64 d) as [gs|] eqn:Eg; [|exact X]. destruct (writable p); cbn [negb]; [|exact X].
  pose proof (proj2 (proj2 G) i d C) as (Sh & Gr).
  destruct (Gr gs Eg) as (b & gmf & A1 & A2 & A3 & A4 & A5); [eapply S; [apply check_has; eauto|congruence]|].
  destruct Sh as [(Hb & _)|(b' & data & Hb & Hh & Hc & Hl & Hs)]; [congruence|]. rewrite Hb in A1. injection A1 as ->.
  destruct (ds_thr F64 d) as [thr|]; [|congruence]. cbn [init lift].
  destruct (save_any _ (st_heap F64 σ) (ds_set F64 d) b data gmf gs flag Hh A2 Hc Hs A4) as (t & ->). cbn [lift after].
  eexists. split; [reflexivity|]. apply (good_quiet past σ); [auto|split; auto|apply G|exact I].
Qed.

Lemma loadGroup_goes past σ i p : run (st_init F64 files) past = Some σ -> good past σ -> safe past σ (OpLoadGroup F64 i p) -> goes past σ (OpLoadGroup F64 i p).
Proof.
  intros Hrun G S. unfold goes.
  assert (X : forall e, step σ (OpLoadGroup F64 i p) = Exn F64 σ e -> exists σ', after F64 (step σ (OpLoadGroup F64 i p)) = Some σ' /\ good (past ++ [OpLoadGroup F64 i p]) σ').
  { intros e E. rewrite E. exists σ. split; auto. apply (good_same past σ); [auto|split; auto|apply G|]. intros j d _ Fr. left.
    apply fresh_snoc in Fr as [[(thr & clock & H)|(p' & s & s' & v & [= -> ->] & Hs & H)]|(Fr & _)]; auto; [discriminate|].
    rewrite Hrun in Hs. injection Hs as <-. rewrite E in H. discriminate. }
  destruct (check_or σ i) as [(d & C)|(e & C)]; [|apply (X e); cbn [Api.step]; unfold api_loadGroup; rewrite C; reflexivity].
  pose proof (check_has _ _ _ C) as Hd. destruct (st_files F64 σ p) as [t|] eqn:Ef; [|eapply X; eapply C41_missing_file; eauto].
  destruct (S d t Hd Ef) as [[(v & r & Hv & Hne)|(thr & cnt & len & r & Hh & Hne)]|(Hbuf & Hlen & thr & name & f & Hg & Hn & Hsz & Hme & Hlo & Hf)].
  - eapply X. eapply C41_version; eauto.
  - destruct (Z.eq_dec cnt (set_count (ds_set F64 d))) as [->|Hc]; [|eapply X; eapply C41_count; eauto].
    eapply X. eapply C41_length; eauto. now destruct Hne.
  - pose proof (proj2 (proj2 G) i d C) as (Sh & _). pose proof (check_inv F64 _ _ _ C) as (Hi & _).
    destruct Sh as [(Hb & _)|(b & data & Hb & Hh & Hc & Hl & Hs)]; [congruence|].
    assert (D : dataset F64 σ i d data) by (split; auto; exists b; auto).
    destruct (load_general writable σ i d data p t thr name f D Ef ltac:(lia) Hg Hn Hsz) as [(_ & L & v & cs & c & HL & H1 & H2 & H3)|(k & sp & E & Hsp)].
    { exfalso. apply H3. apply (cpos_range (ds_set F64 d) L ltac:(lia)). exact (Hme L v cs c HL H1 H2). }
    rewrite E. set (gs := mkGS F64 sp _ _) in *. set (d' := mkDS F64 _ _ _) in *. exists (put_set F64 σ i (Some d')). split; [reflexivity|].
    apply (good_at past σ _ _ i); auto.
    + now rewrite E.
    + apply G.
    + intros j Hj. split; [cbn; congruence|discriminate].
    + intros j Hj. rewrite check_put_other by (auto; lia). reflexivity.
    + intros d1 C1. rewrite check_put in C1 by exact Hi. injection C1 as <-. split.
      * right. exists b, data. cbn [ds_set d']. auto.
      * intros gs1 [= <-] _. exists b, (fun L => map snd (f L)). cbn [ds_set ds_thr d' gs_spaces gs]. split; auto. split; auto. split; [discriminate|]. split.
        -- destruct Hsp as (Hz & _ & Hsp). split; auto. intros L HL. destruct (Hsp L HL) as (ls & El & Hls). exists ls. split; auto. split.
           ++ exact (lists_links (ds_set F64 d) L ltac:(lia) ls (f L) Hlen Hls (Hlo L HL) (fun v cs Hin c => Hme L v cs c HL Hin)).
           ++ apply Forall_forall. intros g Hing. apply in_zget in Hing as (m & Hm & Em). destruct Hls as (_ & _ & _ & Hlz & _ & _ & Hgr).
              destruct (zget_Ok (f L) m) as ((v & cs) & Ev); [change (num F64) with spec_float in *; lia|]. destruct (Hgr m g v cs Em Ev) as (-> & _).
              pose proof (zget_in _ _ _ Ev) as Hin. split; [|exact I]. right. exists v. cbn [g_centroid].
              split; [intros h'; apply owned_read; [lia|exact (Hsz L v cs HL Hin)]|]. split; [reflexivity|]. split; [exact (Hsz L v cs HL Hin)|]. exact (proj2 (Hf L HL) v cs Hin).
        -- intros L HL _ E0. apply (proj1 (Hf L HL)). now destruct (f L).
Qed.

Lemma nth_slice {A} (l : list A) n m k x : nth_error (firstn n (skipn m l)) k = Some x -> (k < n)%nat /\ nth_error l (m + k) = Some x.
Proof.
  revert m k. induction n as [|n IH]; intros m k H; [destruct k; discriminate|].
  assert (Hk : nth_error (skipn m l) k = Some x).
  { clear IH. revert H. generalize (skipn m l). intros l'. revert n l'. induction k as [|k IH]; intros n [|y l'] H; try discriminate; auto.
    destruct n; [destruct k; discriminate|]. cbn in *. eapply IH; eauto. }
  split.
  - assert (k < length (firstn (S n) (skipn m l)))%nat by (apply nth_error_Some; congruence). rewrite firstn_length in *. lia.
  - clear - Hk. revert l Hk. induction m as [|m IH]; intros [|y l] Hk; auto; try (destruct k; discriminate). cbn. now apply IH.
Qed.
Lemma vals_cells d data L c (P : num F64 -> Prop) : 2 <= L <= set_len (ds_set F64 d) -> valid (ds_set F64 d) L c ->
  set_count (ds_set F64 d) * set_len (ds_set F64 d) <= zlen data ->
  (forall t j x, cell F64 d data t j x -> P x) -> Forall P (vals F64 (ds_set F64 d) data L c).
Proof.
  intros HL (V1 & V2 & V3) Hz H. apply Forall_forall. intros x Hx. unfold vals, zslice in Hx.
  apply In_nth_error in Hx as (k & Hk). apply nth_slice in Hk as (Hkl & Hk).
  apply (H (fst c) (snd c + Z.of_nat k)). split; [lia|]. split; [lia|]. unfold zget.
  destruct (Z.ltb_spec (fst c * set_len (ds_set F64 d) + (snd c + Z.of_nat k)) 0); [nia|].
  replace (Z.to_nat (fst c * set_len (ds_set F64 d) + (snd c + Z.of_nat k))) with (Z.to_nat (fst c * set_len (ds_set F64 d) + snd c) + k)%nat by nia.
  rewrite Hk. reflexivity.
Qed.

Lemma query_ex past σ q dq ix a e t : good past σ -> check σ q = Ok dq -> getTimeSeries F64 (ds_set F64 dq) ix a e = Ok t ->
  exists qv, query_is F64 σ q ix a e qv.
Proof.
  intros G C E. unfold getTimeSeries in E. destruct (Z.ltb_spec ix 0); [discriminate|]. destruct (Z.leb_spec (set_count (ds_set F64 dq)) ix); [discriminate|]. cbn [orb] in E.
  destruct (proj1 (proj2 (proj2 G) q dq C)) as [(_ & Hc & _)|(b & data & Hb & Hh & Hc & Hl & Hs)]; [lia|].
  assert (D : dataset F64 σ q dq data) by (split; auto; exists b; auto).
  destruct (Z.ltb_spec a 0) as [Ha|Ha], (Z.ltb_spec e 0) as [He|He]; cbn [andb orb] in E.
  - eexists. exists dq, data. split; [exact D|]. split; [lia|]. left. auto.
  - discriminate.
  - exfalso. destruct (Z.leb_spec e a); [discriminate|lia].
  - destruct (Z.leb_spec e a); [discriminate|]. cbn [orb] in E. destruct (Z.ltb_spec (set_len (ds_set F64 dq)) e); [discriminate|].
    eexists. exists dq, data. split; [exact D|]. split; [lia|]. right. split; [lia|]. split; [lia|reflexivity].
Qed.
Lemma inf_top x : nltb F64 (ninf F64) x = false.
Proof. destruct x as [[|]|[|]| |[|] ? ?]; reflexivity. Qed.

Lemma match_goes past σ r q ix a e : good past σ -> safe past σ (OpMatch F64 r q ix a e) -> goes past σ (OpMatch F64 r q ix a e).
Proof.
  intros G S. unfold goes. cbn [Api.step].
  assert (X : exists σ', Some σ = Some σ' /\ good (past ++ [OpMatch F64 r q ix a e]) σ').
  { exists σ. split; auto. apply (good_quiet past σ); [auto|split; auto|apply G|exact I]. }
  unfold api_match at 1. destruct (check_or σ r) as [(d & C)|(er & C)]; rewrite C; cbn [lift]; [|exact X].
  destruct (check_or σ q) as [(dq & Cq)|(er & Cq)]; rewrite Cq; cbn [lift]; [|exact X].
  assert (Y : (exists t, getTimeSeries F64 (ds_set F64 dq) ix a e = Ok t) \/ (exists er, getTimeSeries F64 (ds_set F64 dq) ix a e = Throw er)).
  { unfold getTimeSeries. destruct (_ || _); [eauto|]. destruct (_ && _); [eauto|]. destruct (_ || _ || _); eauto. }
  destruct Y as [(t0 & Et)|(er & ->)]; [|exact X].
  destruct (query_ex past σ q dq ix a e t0 G Cq Et) as (qv & Q).
  destruct (query_read F64 _ _ _ _ _ _ Q) as (dq' & t & Cq' & Gt & Rt & Lt & Ct). rewrite Cq in Cq'. injection Cq' as <-. rewrite Gt. cbn [lift].
  destruct (ds_groups F64 d) as [gs|] eqn:Eg; [|exact X].
  destruct (Z_le_gt_dec (zlen qv) 1) as [Hsm|Hbig].
  { unfold global_getBestMatch at 1. rewrite Lt. destruct (Z.leb_spec (zlen qv) 1); [|lia]. exact X. }
  destruct (S d qv (check_has _ _ _ C) ltac:(congruence) Q ltac:(lia)) as (Fr & Hcnt & Hql & Hqs & Hcells).
  pose proof (proj2 (proj2 G) r d C) as (Sh & Gr). pose proof (check_inv F64 _ _ _ C) as (Hi & _).
  destruct (Gr gs Eg Fr) as (b & gmf & A1 & A2 & A3 & A4 & A5).
  destruct Sh as [(Hb & _)|(b' & data & Hb & Hh & Hc & Hl & Hs)]; [congruence|]. rewrite Hb in A1. injection A1 as ->.
  assert (D : dataset F64 σ r d data) by (split; auto; exists b; auto).
  assert (Vs : forall L c, 2 <= L <= set_len (ds_set F64 d) -> valid (ds_set F64 d) L c -> Forall small64 (vals F64 (ds_set F64 d) data L c)).
  { intros L c HL Hv. apply vals_cells; auto. intros t1 j x Hx. eapply Hcells; eauto. }
  assert (R : ratio64 (st_ratio F64 σ)) by apply G.
  assert (Fs : forall l, Forall small64 l -> Forall fin64 l) by (intros l; apply Forall_impl; apply small_fin).
  destruct (match_any F64 fin64 pos64 f64_cost inf_top (st_heap F64 σ) (ds_set F64 d) b data Hb Hh A2 Hcnt Hs) with
     (ok := Forall small64) (q0 := t) (qv := qv) (ratio := st_ratio F64 σ) (bw := band64 (st_ratio F64 σ)) (gmf := gmf) (gs := gs) as (sp & L & c & dist & Em & Wsp & HL & Vc); auto.
  - lia.
  - intros k Hk. apply band64_Ok; auto. unfold klen. lia.
  - intros k Hk. apply band64_range; auto. unfold klen. lia.
  - intros v Hv Ez. apply no_overflow_64; auto; [|change (num F64) with spec_float in *; lia].
    change (num F64) with spec_float in *. lia.
  - unfold cache_shape. now rewrite Ct.
  - apply A5; [change (num F64) with spec_float in *; lia|auto].
  - rewrite Em. cbn [lift after]. set (σ' := put_set F64 _ _ _). exists σ'. split; [reflexivity|]. apply (good_at past σ _ σ' r); auto.
    + cbn [Api.step]. unfold api_match. rewrite C. cbn [lift]. rewrite Cq. cbn [lift]. rewrite Gt. cbn [lift]. rewrite Eg, Em. reflexivity.
    + intros j Hj. split; [exact I|]. cbn. congruence.
    + intros j Hj. unfold σ'. rewrite check_put_other by (auto; lia). reflexivity.
    + intros d' C'. unfold σ' in C'. rewrite check_put in C' by exact Hi. injection C' as <-. split.
      * right. exists b, data. cbn [ds_set]. auto.
      * intros gs1 [= <-] _. exists b, gmf. cbn [ds_set ds_thr gs_spaces]. auto.
Qed.

Theorem step_goes past σ o : run (st_init F64 files) past = Some σ -> good past σ -> safe past σ o -> goes past σ o.
Proof.
  intros Hrun G S.
  assert (X : forall o', no_groups o' -> after F64 (step σ o') = Some σ -> goes past σ o').
  { intros o' Ho A. exists σ. split; auto. apply (good_quiet past σ); [auto|split; auto|apply G|auto]. }
  destruct o.
  - now apply load_goes.
  - now apply save_goes.
  - now apply unload_goes.
  - eexists. split; [reflexivity|]. split; [|split; [apply G|]].
    + apply (step_wf F64 F64_IO writable σ (OpUnloadAll F64)); [apply G|reflexivity].
    + intros i d C. exfalso. unfold checkDatasetIndex in C. cbn in C. destruct (_ || _); [discriminate|]. destruct (Z.to_nat i); discriminate.
  - apply X; [exact I|reflexivity].
  - apply X; [exact I|]. cbn [Api.step]. unfold api_info, getDatasetInfo. destruct (check_or σ i) as [(d & ->)|(e & ->)]; reflexivity.
  - apply X; [exact I|reflexivity].
  - now apply normalize_goes.
  - now apply group_goes.
  - now apply saveGroup_goes.
  - now apply loadGroup_goes.
  - eexists. split; [reflexivity|]. apply (good_quiet past σ); [auto|split; auto|exact S|exact I].
  - now apply match_goes.
  - now apply paa_goes.
Qed.

Lemma default_ratio : ratio64 (ndiv F64 (nofZ F64 1) (nofZ F64 10)).
Proof.
  cbn [ndiv nofZ F64]. destruct (ofZ_exact 1) as (F1 & V1); [cbn; lia|]. destruct (ofZ_exact 10) as (F10 & V10); [cbn; lia|].
  destruct (div_rnd (f64_ofZ 1) (f64_ofZ 10) F1 F10) as (O & V); [rewrite V10; lra|]. rewrite V1, V10 in V.
  assert (B : (0 <= rnd (1 / 10) <= 1)%R).
  { split; [apply rnd_pos; lra|]. rewrite <- (rnd_id 1 format1) at 2. apply rnd_le. lra. }
  assert (H2 : (2 <= BIG)%R) by (change 2%R with (bpow radix2 1); apply bpow_le; lia).
  rewrite clip_id in V by lra. rewrite <- V in B. split; [apply fin_val_bound; auto; lra|exact B].
Qed.
Lemma init_good : good [] (st_init F64 files).
Proof.
  split; [apply init_wf|]. split; [apply default_ratio|]. intros i d C. exfalso. unfold checkDatasetIndex in C. cbn in C. destruct (_ || _); [discriminate|]. destruct (Z.to_nat i); discriminate.
Qed.
Lemma run_app l1 : forall σ l2, run σ (l1 ++ l2) =
  match run σ l1 with Some σ' => run σ' l2 | None => None end.
Proof. induction l1 as [|o l1 IH]; intros σ l2; cbn [Api.run app]; auto. destruct (after F64 (step σ o)); auto. Qed.

Theorem safe_run ops : safe_history writable files ops ->
  exists σ, run (st_init F64 files) ops = Some σ /\ good ops σ.
Proof.
  induction ops as [|o ops IH] using rev_ind; intros H.
  - exists (st_init F64 files). split; [reflexivity|apply init_good].
  - destruct IH as (σ & E & G).
    { intros past o' rest s E Es. apply (H past o' (rest ++ [o])); auto. rewrite E. rewrite <- app_assoc. reflexivity. }
    destruct (step_goes ops σ o E G) as (σ' & A & G'); [apply (H ops o []); auto|].
    exists σ'. split; auto. rewrite run_app, E. cbn [Api.run]. now rewrite A.
Qed.
End Steps.
