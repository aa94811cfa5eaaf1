(** * Groups whose representatives refer to freed memory (after PAA on a grouped dataset). *)
From Coq Require Import ZArith Bool Lia String SpecFloat List.
From Verif Require Import Outcome Num Lemire Distance TimeSeries Text Dataset Groups Api Laws F64Base F64Laws LemireProofs.
From Verif Require Import TsProofs GroupSpec GroupProofs GlobalGroup MatchProofs SimProofs SessionProofs SessionMatch TraverseProofs ApiProofs.
Import ListNotations.
Open Scope Z_scope.

(** A value or undefined behaviour. *)
Definition ok_ub {A} (o : outcome A) : Prop := match o with Ok _ | UB _ => True | _ => False end.
Lemma ok_ub_bind {A B} (o : outcome A) (k : A -> outcome B) : ok_ub o -> (forall a, o = Ok a -> ok_ub (k a)) -> ok_ub (bind o k).
Proof. destruct o; cbn; auto. Qed.
Lemma ok_ub_forb {S} lo hi (body : Z -> S -> outcome (ctl S)) s : (forall j t, lo <= j < hi -> ok_ub (body j t)) -> ok_ub (forb lo hi body s).
Proof.
  unfold forb. intros H. remember (Z.to_nat (hi - lo)) as n eqn:En. revert lo s H En. induction n as [|n IH]; intros lo s H En; cbn [loopb]; [exact I|].
  assert (K := H lo s ltac:(lia)). destruct (body lo s) as [[t|t]| |u|]; cbn in *; try contradiction; auto. apply IH; [|lia]. intros. apply H. lia.
Qed.
Lemma ok_ub_uget {N} (u : uarray N) i : ok_ub (uget N u i).
Proof. unfold uget. apply ok_ub_bind; [unfold zget; destruct (_ <? 0); [exact I|]; now destruct (nth_error _ _)|]. intros [x|] _; exact I. Qed.
Lemma ok_ub_keogh {N} l u la (b : list (num N)) d : ok_ub (keogh_sum N l u la b d).
Proof.
  unfold keogh_sum. apply ok_ub_bind; [|intros; exact I]. apply ok_ub_forb. intros j t Hj. unfold keogh_step. destruct (negb _); [exact I|].
  apply ok_ub_bind. { unfold ts_at. destruct (Z.ltb_spec j 0); [lia|]. destruct (Z.leb_spec (zlen b) j); [lia|]. cbn [orb]. destruct (zget_Ok b j) as (x & Hx); [lia|]. now rewrite Hx. }
  intros bi _. apply ok_ub_bind; [apply ok_ub_uget|]. intros ui _. destruct (nltb N ui bi); [exact I|].
  apply ok_ub_bind; [apply ok_ub_uget|]. intros li _. destruct (nltb N bi li); exact I.
Qed.

Section Dangle.
Context (IO : NumIO F64) (writable : string -> bool).
Local Notation st := (st F64).
Local Notation check := (checkDatasetIndex F64).

(** A series in freed memory. *)
Definition dead (h : heap F64) (t : ts F64) : Prop := exists b base, ts_src t = View b base /\ nth_error h b = Some None.
Lemma dead_read h t : dead h t -> ts_read F64 h t = UB UseAfterFree.
Proof. intros (b & base & E & H). unfold ts_read. rewrite E. unfold heap_get. now rewrite H. Qed.
Lemma env_src h t band t' lu : ts_envelope F64 h t band = Ok (t', lu) -> ts_src t' = ts_src t /\ ts_start t' = ts_start t /\ ts_len t' = ts_len t.
Proof.
  unfold ts_envelope. assert (R : (v <- ts_read F64 h t;; '(l, u) <- generateKeoghLU F64 v band;;
    Ok (mkTS (ts_src t) (ts_index t) (ts_start t) (ts_end t) (ts_len t) (Some (mkCache band l u)), (l, u))) = Ok (t', lu) ->
    ts_src t' = ts_src t /\ ts_start t' = ts_start t /\ ts_len t' = ts_len t).
  { intros E. apply bind_Ok_inv in E as (v & _ & E). apply bind_Ok_inv in E as ((l & u) & _ & E). injection E as <- _. auto. }
  destruct (ts_cache t) as [c|]; auto. destruct (_ =? _); auto. injection 1 as <- _. auto.
Qed.

(** Never a value: the representative is read before the distance is known. *)
Lemma cascade_dead h ratio t q : dead h t -> forall r, cascade_ts F64 h ratio t q (ninf F64) <> Ok r.
Proof.
  intros D r E. unfold cascade_ts, crossKeogh_ts in E. apply bind_Ok_inv in E as (((a & b) & lb) & E & _). apply bind_Ok_inv in E as ((a' & lb') & E1 & E2).
  unfold keogh_ts in E1. apply bind_Ok_inv in E1 as (w & _ & E1). apply bind_Ok_inv in E1 as ((a2 & (l & u)) & Ee & E1).
  apply env_src in Ee as (Es & _). apply bind_Ok_inv in E1 as (bv & _ & E1). apply bind_Ok_inv in E1 as (dd & _ & E1). injection E1 as <- <-.
  assert (Hl : nltb F64 (ninf F64) dd = false) by (destruct dd as [[]|[]| |[] ? ?]; reflexivity).
  rewrite Hl in E2. apply bind_Ok_inv in E2 as ((b' & lb2) & E2 & _). unfold keogh_ts in E2. apply bind_Ok_inv in E2 as (w2 & _ & E2).
  apply bind_Ok_inv in E2 as ((b2 & (l2 & u2)) & _ & E2). assert (D' : dead h a2) by (destruct D as (bb & base & D1 & D2); exists bb, base; split; congruence).
  rewrite (dead_read _ _ D') in E2. discriminate.
Qed.
(** Undefined behaviour if nothing else goes wrong before. *)
Lemma cascade_dead_ub h ratio t q v w : dead h t -> ts_read F64 h q = Ok v -> ts_cache q = None -> Forall ok64 v -> 1 <= zlen v ->
  calculateWarpingBandSize F64 ratio (Z.max (ts_len t) (ts_len q)) = Ok w -> 0 <= w ->
  exists u, cascade_ts F64 h ratio t q (ninf F64) = UB u.
Proof.
  intros D R C F L W Hw.
  assert (K : ok_ub (cascade_ts F64 h ratio t q (ninf F64))).
  { unfold cascade_ts, crossKeogh_ts. apply ok_ub_bind.
    - apply ok_ub_bind.
      + unfold keogh_ts. rewrite W. cbn [bind]. apply ok_ub_bind.
        * unfold ts_envelope. rewrite (dead_read _ _ D). destruct (ts_cache t) as [c|]; [|exact I]. destruct (_ =? _); exact I.
        * intros (a2 & (l & u)) _. rewrite R. cbn [bind]. apply ok_ub_bind; [apply ok_ub_keogh|]. intros; exact I.
      + intros (a & lb) Ea. destruct (nltb _ _ _); [exact I|]. apply ok_ub_bind; [|intros (? & ?) _; exact I].
        unfold keogh_ts in *. rewrite W in Ea. cbn [bind] in Ea. apply bind_Ok_inv in Ea as ((a2 & (l & u)) & Ee & Ea). apply env_src in Ee as (Es & _ & El).
        apply bind_Ok_inv in Ea as (bv & _ & Ea). apply bind_Ok_inv in Ea as (dd & _ & Ea). injection Ea as <- <-.
        rewrite Z.max_comm, El, W. cbn [bind]. apply ok_ub_bind.
        * unfold ts_envelope. rewrite C, R. cbn [bind]. destruct (Post_inv _ _ (generateKeoghLU_spec F64 ok64 f64_ord v w F L Hw)) as ((l2 & u2) & -> & _). exact I.
        * intros (b2 & (l2 & u2)) _. assert (D' : dead h a2) by (destruct D as (bb & base & D1 & D2); exists bb, base; split; congruence).
          rewrite (dead_read _ _ D'). exact I.
    - intros ((a & b) & lb) E. exfalso. unfold crossKeogh_ts in E. apply bind_Ok_inv in E as ((a' & lb') & E1 & E2).
      apply (cascade_dead h ratio t q D (a, b, ninf F64)). unfold cascade_ts, crossKeogh_ts. rewrite E1. cbn [bind].
      assert (Hl : forall x, nltb F64 (ninf F64) x = false) by (intros [[]|[]| |[] ? ?]; reflexivity).
      rewrite Hl in *. apply bind_Ok_inv in E2 as ((b' & lb2) & E2 & _). unfold keogh_ts in E2. apply bind_Ok_inv in E2 as (w2 & _ & E2).
      apply bind_Ok_inv in E2 as ((b2 & (l2 & u2)) & _ & E2).
      assert (D' : dead h a').
      { unfold keogh_ts in E1. apply bind_Ok_inv in E1 as (w1 & _ & E1). apply bind_Ok_inv in E1 as ((a2 & (l & u)) & Ee & E1). apply env_src in Ee as (Es & _).
        apply bind_Ok_inv in E1 as (bv & _ & E1). apply bind_Ok_inv in E1 as (dd & _ & E1). injection E1 as <- _.
        destruct D as (bb & base & D1 & D2); exists bb, base; split; congruence. }
      rewrite (dead_read _ _ D') in E2. discriminate. }
  destruct (cascade_ts F64 h ratio t q (ninf F64)) as [r| |u|] eqn:E; try contradiction; [|eauto]. exfalso. exact (cascade_dead _ _ _ _ D _ E).
Qed.

(** Dataset [i] is marked as grouped (up to length [top]) but the first representative of every length is in freed memory. *)
Definition dangling (σ : st) (i top : Z) : Prop :=
  exists d gs, check σ i = Ok d /\ ds_groups F64 d = Some gs /\ zlen (gs_spaces F64 gs) = top + 1 /\
    forall L, 2 <= L <= top -> exists ls g rest, zget (gs_spaces F64 gs) L = Ok (Some ls) /\ ls_groups F64 ls = g :: rest /\
      dead (st_heap F64 σ) (g_centroid F64 g) /\ ts_len (g_centroid F64 g) = L.

Lemma best_dead h ratio ls q g rest : ls_groups F64 ls = g :: rest -> dead h (g_centroid F64 g) ->
  (forall r, getBestGroup F64 h ratio ls q (ninf F64) <> Ok r) /\
  (forall u, cascade_ts F64 h ratio (g_centroid F64 g) q (ninf F64) = UB u -> getBestGroup F64 h ratio ls q (ninf F64) = UB u).
Proof.
  intros E D. unfold getBestGroup, for_. rewrite E. 
  replace (Z.to_nat (zlen (g :: rest) - 0)) with (S (length rest)) by (unfold zlen; cbn [length]; lia). cbn [loop].
  unfold best_group_step at 1 3. change (zget (g :: rest) 0) with (Ok g). cbn [bind]. split.
  - intros r H. apply bind_Ok_inv in H as (x & H & _). apply bind_Ok_inv in H as (y & H & _). apply bind_Ok_inv in H as (z & H & _). exact (cascade_dead _ _ _ _ D _ H).
  - intros u ->. reflexivity.
Qed.
Lemma match_dangling σ i top r q ix a e : dangling σ i top -> r = i -> forall σ' v, api_match F64 σ r q ix a e <> Done F64 σ' v.
Proof.
  intros (d & gs & C & G & Z & H) -> σ' v E. apply match_inv in E as (d' & gs' & gs2 & c & dq & query & C' & _ & _ & G' & Em & _).
  replace d' with d in * by congruence. replace gs' with gs in * by congruence. clear C' G'.
  unfold global_getBestMatch in Em. destruct (Z.leb_spec (ts_len query) 1) as [|Hl]; [discriminate|].
  apply bind_Ok_inv in Em as (order & Eo & Em). apply bind_Ok_inv in Em as ((((sp & q2) & bd) & bg) & Ef & _).
  assert (Hhd : exists rest, order = ts_len query :: rest).
  { clear - Eo. unfold generateTraverseOrder in Eo. apply bind_Ok_inv in Eo as (((((o & lo) & hi) & lst) & hst) & Eo & E). injection E as ->.
    revert Eo. set (P := fun s : to_state => exists rest, fst (fst (fst (fst s))) = ts_len query :: rest).
    assert (K : forall fuel s s', P s -> while_ fuel (fun st : to_state => let '(_, _, _, ls, hs) := st in Ok (negb (ls && hs)))
        (traverse_body F64 (st_ratio F64 σ) (ts_len query) (zlen (gs_spaces F64 gs) - 1)) s = Ok s' -> P s').
    { assert (B : forall s s', P s -> traverse_body F64 (st_ratio F64 σ) (ts_len query) (zlen (gs_spaces F64 gs) - 1) s = Ok s' -> P s').
      { intros ((((o1 & l1) & h1) & a1) & b1) s' (rest & Hp) E. cbn in Hp. subst o1. unfold traverse_body in E.
        apply bind_Ok_inv in E as (((o2 & l2) & a2) & E2 & E). apply bind_Ok_inv in E as (((o3 & h3) & b3) & E3 & E). injection E as <-. cbn.
        assert (P2 : exists rest', o2 = ts_len query :: rest').
        { destruct (negb _); [|injection E2 as <- _ _; eauto]. apply bind_Ok_inv in E2 as (w & _ & E2). destruct (_ <=? _); injection E2 as <- _ _; cbn; eauto. }
        destruct P2 as (rest2 & ->). destruct (negb _) in E3; [|injection E3 as <- _ _; unfold P; cbn; eauto].
        apply bind_Ok_inv in E3 as (w & _ & E3). unfold P. cbn. destruct (_ <=? _) in E3; injection E3 as <- _ _; cbn; eauto. }
      induction fuel as [|fuel IH]; intros s s' Hp E; cbn [while_] in E; apply bind_Ok_inv in E as (c & _ & E); destruct c; try discriminate; try (injection E as <-; exact Hp).
      apply bind_Ok_inv in E as (s1 & E1 & E). apply (IH s1); eauto. }
    intros Eo. apply K in Eo; [|exists []; reflexivity]. destruct Eo as (rest & Hr). exists rest. exact Hr. }
  destruct Hhd as (rest & ->). cbn [for_each] in Ef. apply bind_Ok_inv in Ef as (s1 & E1 & _). unfold global_match_step in E1.
  apply bind_Ok_inv in E1 as (o & Eo' & E1). pose proof (zget_inv _ _ _ Eo') as (Hr & _).
  destruct (H (ts_len query)) as (ls & g & rst & E2 & E3 & D & _); [lia|]. rewrite E2 in Eo'. injection Eo' as <-.
  apply bind_Ok_inv in E1 as (x & E1 & _). exact (proj1 (best_dead _ _ _ _ _ _ E3 D) _ E1).
Qed.

(** Freed memory stays freed. *)
Lemma fold_freed (l : list (option (dset F64))) : forall h, freed_mono F64 h (fold_left (fun h o => match o with
   | Some d => hfree F64 h (set_buf (ds_set F64 d)) | None => h end) l h).
Proof.
  induction l as [|o l IH]; intros h; cbn [fold_left]; [intros b H; exact H|]. eapply freed_trans; [|apply IH].
  destruct o; [apply freed_hfree|intros b H; exact H].
Qed.
Theorem step_freed σ o σ' : after F64 (step F64 IO writable σ o) = Some σ' -> freed_mono F64 (st_heap F64 σ) (st_heap F64 σ').
Proof.
  intros A. assert (Fr : freed_mono F64 (st_heap F64 σ) (st_heap F64 σ)) by (intros b H; exact H).
  destruct (step F64 IO writable σ o) as [s v|s e| |] eqn:E; cbn in A; try discriminate; injection A as ->.
  - destruct o; cbn [step] in E.
    + apply load_inv in E as (d & _ & _ & _ & _ & (_ & C1 & C2 & (l & Eh & _) & _ & Eg & _) & _). rewrite Eh. apply freed_app.
    + unfold api_save in E. apply lift_done in E as (d & _ & E). destruct (negb _); [discriminate|]. apply lift_done in E as (t & _ & E). injection E as <- _. exact Fr.
    + apply unload_inv in E as (d & C & C1 & C2 & Eh & _). rewrite Eh. apply freed_hfree.
    + injection E as <- _. cbn. apply fold_freed.
    + injection E as <- _. exact Fr.
    + unfold api_info in E. apply lift_done in E as (d & _ & E). injection E as <- _. exact Fr.
    + injection E as <- _. exact Fr.
    + unfold api_normalize in E. apply lift_done in E as (d & C & E). apply lift_done in E as (((h & s) & (mn & mx)) & En & E).
      injection E as <- _. apply normalize_inv in En as (b & old & new & Eb & Ho & -> & ->). cbn. eapply freed_set; eauto.
    + unfold api_group in E. apply lift_done in E as (d & C & E). destruct (negb _); [discriminate|]. cbn zeta in E.
      destruct (global_group F64 _ _ _ _ _ _) as [(gs & n)|x| |]; try discriminate. injection E as <- _. destruct (2 <=? _); exact Fr.
    + unfold api_saveGroup in E. apply lift_done in E as (d & _ & E). destruct (ds_groups F64 d); [|discriminate].
      destruct (negb _); [discriminate|]. apply lift_done in E as (thr & _ & E). apply lift_done in E as (t & _ & E). injection E as <- _. exact Fr.
    + unfold api_loadGroup in E. apply lift_done in E as (d & C & E). destruct (st_files F64 σ path); [|discriminate].
      apply lift_done in E as ((fin & thr) & _ & E). apply lift_done in E as ((gs & r) & El & E). destruct r; [|discriminate]. injection E as <- _. exact Fr.
    + injection E as <- _. exact Fr.
    + apply match_inv in E as (d & gs & gs' & c & dq & q & C & _ & _ & Hg & Em & -> & _). exact Fr.
    + unfold api_PAA in E. apply lift_done in E as (d & C & E). apply lift_done in E as ((h & s) & En & E).
      injection E as <- _. apply PAA_inv in En as (new & -> & -> & _). cbn. eapply freed_trans; [apply freed_hfree|apply freed_app].
  - destruct o; try (apply step_exn in E as [->|[(? & ? & X)|((? & ? & ? & X) & _)]]; [exact Fr|discriminate X|discriminate X]).
    + cbn [step] in E. unfold api_group in E. apply lift_exn in E as [(_ & ->)|(d & C & E)]; auto.
      destruct (negb _); [now injection E as <-|]. cbn zeta in E.
      destruct (global_group F64 _ _ _ _ _ _) as [(gs & n)|x| |]; try discriminate. injection E as <- _. exact Fr.
    + cbn [step] in E. unfold api_loadGroup in E. apply lift_exn in E as [(_ & ->)|(d & C & E)]; auto.
      destruct (st_files F64 σ path); [|now injection E as <-].
      apply lift_exn in E as [(_ & ->)|((fin & thr) & _ & E)]; auto. apply lift_exn in E as [(_ & ->)|((gs & r) & El & E)]; auto.
      destruct r; [discriminate|]. injection E as <- _. exact Fr.
Qed.

(** The state lasts until the dataset is addressed again. *)
Lemma step_dangling σ o σ' i top : wf F64 σ -> dangling σ i top -> after F64 (step F64 IO writable σ o) = Some σ' -> quiet F64 i o -> dangling σ' i top /\ keeps F64 σ σ' i.
Proof.
  intros W D A Q. pose proof (step_freed _ _ _ A) as Fm.
  assert (K : keeps F64 σ σ' i -> dangling σ' i top /\ keeps F64 σ σ' i).
  { intros K. split; auto. destruct D as (d & gs & C & G & Z & H). destruct (K d C) as (C' & _). exists d, gs. split; auto. split; auto. split; auto.
    intros L HL. destruct (H L HL) as (ls & g & rest & E1 & E2 & (b & base & E3 & E4) & E5). exists ls, g, rest. split; auto. split; auto. split; auto. exists b, base. auto. }
  destruct (step_wf F64 IO writable σ o σ' W A) as (_ & HK).
  destruct (match_target F64 o) as [r|] eqn:Em; [|apply K, HK; auto; congruence].
  destruct (Z.eq_dec r i) as [->|Hn]; [|apply K, HK; auto; congruence].
  destruct o; try discriminate. injection Em as ->. cbn [step] in A.
  destruct (api_match F64 σ i query_idx index start end_) as [s1 v|s1 e| |] eqn:E; cbn in A; try discriminate; injection A as ->.
  - exfalso. exact (match_dangling σ i top i _ _ _ _ D eq_refl _ _ E).
  - replace σ' with σ; [split; [auto|apply keeps_refl]|]. symmetry. unfold api_match in E.
    apply lift_exn in E as [(_ & ->)|(d1 & _ & E)]; auto. apply lift_exn in E as [(_ & ->)|(dq & _ & E)]; auto.
    apply lift_exn in E as [(_ & ->)|(q & _ & E)]; auto. destruct (ds_groups F64 d1); [|injection E as <- _; auto].
    apply lift_exn in E as [(_ & ->)|((gs0 & c) & _ & E)]; auto. discriminate.
Qed.
Theorem run_dangling ops : forall σ σ' i top, wf F64 σ -> dangling σ i top -> Forall (quiet F64 i) ops -> run F64 IO writable σ ops = Some σ' ->
  wf F64 σ' /\ dangling σ' i top /\ keeps F64 σ σ' i.
Proof.
  induction ops as [|o ops IH]; intros σ σ' i top W D Q E; cbn [run] in E; [injection E as <-; split; [|split; [|apply keeps_refl]]; auto|].
  destruct (after F64 (step F64 IO writable σ o)) as [s1|] eqn:A; [|discriminate]. inversion Q as [|? ? Q1 Q2]; subst.
  destruct (step_dangling σ o s1 i top W D A Q1) as (D1 & K1).
  destruct (IH s1 σ' i top) as (A1 & A2 & A3); auto; [eapply step_wf; eauto|]. split; auto. split; auto. intros d C. destruct (K1 d C) as (C1 & H1). destruct (A3 d C1) as (C2 & H2). split; auto. intros b Hb. rewrite (H2 b Hb). auto.
Qed.

(** PAA makes ready groups dangling. *)
Lemma PAA_dangling σ i d data gmf n σ' v : wf F64 σ -> ready F64 σ i d data gmf -> 1 <= set_count (ds_set F64 d) ->
  step F64 IO writable σ (OpPAA F64 i n) = Done F64 σ' v -> dangling σ' i (set_len (ds_set F64 d)).
Proof.
  intros W (C & Hlen & b & gs & B1 & B2 & B3 & B4 & B5 & (B6 & B7) & B8) Hc E. cbn [step] in E. unfold api_PAA in E. rewrite C in E. cbn [lift] in E.
  apply lift_done in E as ((h & s) & En & E). injection E as <- _. apply PAA_inv in En as (new & -> & -> & _).
  exists (mkDS F64 (mkSet (Some (length (st_heap F64 σ))) (calcPAALength (set_len (ds_set F64 d)) n) (set_count (ds_set F64 d)) (set_path (ds_set F64 d)) (set_norm (ds_set F64 d))) (ds_groups F64 d) (ds_thr F64 d)), gs.
  split; [apply check_put; exact (proj1 (check_inv F64 _ _ _ C))|]. split; [exact B5|]. split; [exact B6|]. intros L HL.
  destruct (B7 L HL) as (ls & El & Hls). exists ls. pose proof Hls as (_ & _ & _ & Hz & Hg & _).
  assert (Hin : In (0, 0) (concat (gmf L))) by (apply B8; auto; unfold valid; cbn; lia).
  assert (Hpos : 1 <= zlen (gmf L)) by (destruct (gmf L); [destruct Hin|rewrite zlen_cons; pose proof (zlen_nonneg l0); lia]).
  destruct (ls_groups F64 ls) as [|g rest]; [cbn in Hz; lia|]. exists g, rest. split; auto. split; auto.
  destruct (zget_Ok (gmf L) 0) as (ms & Hms); [lia|]. destruct (Hg 0 g ms eq_refl Hms) as (_ & _ & _ & _ & _ & _ & (Es & _ & _ & _ & Elen) & _).
  split; [|exact Elen]. eexists b, _. split; [rewrite Es; reflexivity|]. cbn. rewrite B1. apply heap_get_lt in B2. refine (freed_app F64 _ _ b _). now apply hfree_freed.
Qed.

(** Every match is undefined. *)
Theorem dangling_match σ i top q ix a e (qv : list (num F64)) : dangling σ i top -> query_is F64 σ q ix a e qv -> Forall ok64 qv -> 2 <= zlen qv ->
  (forall k, 1 <= k <= Z.max (zlen qv) top -> exists w, calculateWarpingBandSize F64 (st_ratio F64 σ) k = Ok w /\ 0 <= w) ->
  exists u, api_match F64 σ i q ix a e = Bad F64 u.
Proof.
  intros (d & gs & C & G & Hz & H) Q F Hq B. destruct (query_read F64 _ _ _ _ _ _ Q) as (dq & tq & Cq & Gt & Rt & Lt & Ct).
  destruct (choose_range (fun k w => calculateWarpingBandSize F64 (st_ratio F64 σ) k = Ok w /\ 0 <= w) 0 1 (Z.max (zlen qv) top)) as (bw & Hb); [exact B|].
  unfold api_match. rewrite C. cbn [lift]. rewrite Cq. cbn [lift]. rewrite Gt. cbn [lift]. rewrite G.
  unfold global_getBestMatch. rewrite Lt. destruct (Z.leb_spec (zlen qv) 1); [lia|]. rewrite Hz. replace (top + 1 - 1) with top by lia.
  assert (Hb' : forall k, 1 <= k <= Z.max (zlen qv) top -> calculateWarpingBandSize F64 (st_ratio F64 σ) k = Ok (bw k)) by (intros k Hk; apply Hb; lia).
  destruct (traverse_inv F64 (st_ratio F64 σ) (zlen qv) top bw ltac:(lia) Hb') as (order & E & _).
  destruct (traverse_sound F64 (st_ratio F64 σ) (zlen qv) top bw ltac:(lia) Hb' order E) as (Hhd & _).
  rewrite E. cbn [bind]. destruct order as [|x order]; [discriminate|]. injection Hhd as ->. cbn [for_each]. unfold global_match_step at 1. cbn beta iota zeta. change (num F64) with spec_float in *.
  destruct (Z_le_gt_dec (zlen qv) top) as [Ht|Ht].
  - destruct (H (zlen qv)) as (ls & g & rest & E1 & E2 & D & El); [lia|]. rewrite E1. cbn [bind].
    destruct (cascade_dead_ub (st_heap F64 σ) (st_ratio F64 σ) (g_centroid F64 g) tq qv (bw (zlen qv)) D Rt Ct F) as (u & Eu); [change (num F64) with spec_float in *; lia| | |].
    + rewrite El, Lt, Z.max_id. apply Hb'. lia.
    + apply Hb. lia.
    + exists u. rewrite (proj2 (best_dead _ _ _ _ _ _ E2 D) u Eu). reflexivity.
  - exists OutOfBounds. assert (Eo : zget (gs_spaces F64 gs) (zlen qv) = UB OutOfBounds).
    { unfold zget. pose proof (zlen_nonneg qv). destruct (Z.ltb_spec (zlen qv) 0); [lia|]. rewrite (proj2 (nth_error_None _ _)); [reflexivity|]. unfold zlen in Hz, Ht |- *. change (num F64) with spec_float in *. lia. }
    rewrite Eo. reflexivity.
Qed.
End Dangle.
