(** * Property C60: saving and reloading groups does not change the answers of matches.

    [with_groups], [threshold_is], [saves_to], [loads_from], [resaved] and [listed] are defined in ReloadSpec.v, [same_values], [same_answer],
    [query_is] and [denotes] in GroupSpec.v, [group_file] and the conditions on its groups in GroupFileSpec.v, [short] (values that
    16 digits restore, see C42) in Properties_Digits.v, [not_better64] and [ratio_ok64] in Properties_Match.v, [in_reach] in LoadedSpec.v. *)
From Coq Require Import ZArith Bool Lia Reals Lra SpecFloat Ascii String List.
From Verif Require Import Outcome Num Lemire Distance TimeSeries Text Dataset Groups Api Laws F64Base F64Laws Spec Numeric DecSpec NumSpec GroupFileSpec StreamProofs SaveProofs GroupFileProofs.
From Verif Require Import TsProofs GroupSpec GroupProofs GlobalGroup MatchProofs SimProofs Indep SessionProofs SessionMatch SessionIndep RepMatch LoadedMatch LoadedSpec RepIndep ReloadSpec ReloadProofs ApiProofs GroupFacts.
From Verif Require Import Properties_Groups Properties_Match Properties_Api Properties_Data Properties_GroupFile Properties_Digits Properties_Loaded.
Import ListNotations.
Open Scope Z_scope.

Lemma rready_ext (σ : st F64) i d data gf gf' : rready F64 σ i d data gf -> (forall L, 2 <= L <= set_len (ds_set F64 d) -> gf L = gf' L) -> rready F64 σ i d data gf'.
Proof.
  intros (C & Hlen & b & gs & B1 & B2 & B3 & B4 & B5 & B6 & B7) E. split; auto. split; auto. exists b, gs. do 5 (split; [assumption|]). split; auto.
  destruct B6 as (Z & H). split; auto. intros L HL. rewrite <- (E L HL). auto.
Qed.
(** Members in another order: the same group is searched, and the distances of the two answers differ at most by the last step of rounding. *)
Lemma rv_in (gl : list (list spec_float * list coord)) k v cs : zget gl k = Ok (v, cs) -> In (v, cs) gl.
Proof. apply zget_in. Qed.
Lemma reordered_fst gl gl' : reordered gl gl' -> map fst gl = map fst gl'.
Proof.
  intros (Hl & H). apply nth_error_ext'; [rewrite !map_length; apply Nat2Z.inj; symmetry; exact Hl|]. intros k x y Ex Ey.
  destruct (nth_error gl k) as [(v, cs)|] eqn:E; [|rewrite nth_error_map, E in Ex; discriminate].
  destruct (nth_error gl' k) as [(v', cs')|] eqn:E'; [|rewrite nth_error_map, E' in Ey; discriminate].
  rewrite nth_error_map, E in Ex. rewrite nth_error_map, E' in Ey. cbn in Ex, Ey. destruct (H (Z.of_nat k) v cs v' cs') as (-> & _); [now apply zget_of_nth|now apply zget_of_nth|]. congruence.
Qed.
Lemma one_part {A} (l : list (list A)) i j x y p : NoDup (concat l) -> zget l i = Ok x -> zget l j = Ok y -> In p x -> In p y -> i = j.
Proof.
  intros H Hi Hj. apply zget_inv in Hi as (Ri & Hi). apply zget_inv in Hj as (Rj & Hj). intros Px Py.
  assert (G : forall (l : list (list A)) m n, NoDup (concat l) -> nth_error l m = Some x -> nth_error l n = Some y -> m = n).
  { clear - Px Py. induction l as [|a l IH]; intros m n H Hm Hn; [destruct m; discriminate|]. cbn in H.
    assert (D : forall z, In p a -> In z l -> In p z -> False).
    { intros z Ha Hz Hp. clear - H Ha Hz Hp. induction a as [|b a IHa]; [destruct Ha|]. cbn in H. inversion H as [|? ? N1 N2]; subst. destruct Ha as [->|Ha]; auto.
      apply N1. apply in_or_app. right. apply in_concat. eauto. }
    destruct m as [|m], n as [|n]; cbn in Hm, Hn; auto.
    - exfalso. injection Hm as E. subst a. exact (D y Px (nth_error_In _ _ Hn) Py).
    - exfalso. injection Hn as E. subst a. exact (D x Py (nth_error_In _ _ Hm) Px).
    - f_equal. eapply IH; eauto. eapply NoDup_app_r; eauto. }
  apply Z2Nat.inj; [lia|lia|]. eapply G; eauto.
Qed.
Lemma at_place (h : heap F64) t data c L p L' cs : denotes F64 h t data c L p -> at_member F64 L' cs c -> lt F64 (cand_dist c) (ninf F64) -> L' = L /\ In p cs.
Proof.
  intros (_ & _ & D1 & D2 & _ & D3 & _) [E|(p' & Hp & E1 & E2 & E3)] Hlt; [exfalso; rewrite E in Hlt; discriminate|]. split; [lia|].
  destruct p as (p1, p2), p' as (p1', p2'). cbn [fst snd] in *. congruence.
Qed.

Section Reload.
Context (writable : string -> bool).
Local Notation step := (step F64 F64_IO writable).
Local Notation st := (st F64).

Lemma with_rready (σ : st) i t data f : with_groups writable σ i t data f -> set_len t <= 2 ^ 30 -> 1 <= set_len t ->
  wf F64 σ /\ exists d, rready F64 σ i d data f /\ ds_set F64 d = t.
Proof.
  intros [(thr & gmf & G & Hh & H)|Hl] Hlen Hl1; [|exact (loaded_rready writable σ i t data f Hl Hlen Hl1)].
  destruct (earlier_ready F64 F64_IO writable fin64 pos64 σ i thr t data G Hlen Hh) as (W & gmf' & d & R & Et & _). split; auto. exists d. split; auto.
  eapply rready_ext; [exact (ready_rready F64 σ i d data gmf' R)|]. rewrite Et. intros L HL. destruct (H L HL) as (Hn & ->). rewrite <- Et in Hn.
  rewrite (proj1 (ready_now F64 σ i d data gmf' L (gmf L) R ltac:(rewrite Et; lia)) Hn). reflexivity.
Qed.

(** Matches depend on the values and on the groups only: representatives and members in their order.  Not on how the groups came about, on
    the session, its history or the place of the dataset. *)
Theorem C60_same_answer : forall (σ τ : st) i t data f j u data' f' q ix a e q' ix' a' e' qv,
  with_groups writable σ i t data f -> with_groups writable τ j u data' f' -> set_len t <= 2 ^ 30 -> 1 <= set_len t ->
  same_values F64 t u data data' -> (forall L, 2 <= L <= set_len t -> f L = f' L) ->
  query_is F64 σ q ix a e qv -> query_is F64 τ q' ix' a' e' qv -> st_ratio F64 σ = st_ratio F64 τ ->
  same_answer F64 (api_match F64 σ i q ix a e) (api_match F64 τ j q' ix' a' e').
Proof.
  intros σ τ i t data f j u data' f' q ix a e q' ix' a' e' qv G G' Hlen Hl1 V Hf Q Q' Er. destruct V as (V1 & V2 & V3).
  destruct (with_rready σ i t data f G Hlen Hl1) as (_ & d & R & Et). destruct (with_rready τ j u data' f' G' ltac:(lia) ltac:(lia)) as (_ & d' & R' & Et').
  subst t u. eapply (rready_same F64); eauto. repeat split; auto.
Qed.

Lemma resaved_of (gl : list (list spec_float * list coord)) : (forall v cs, In (v, cs) gl -> Forall (prints 16) v) -> resaved gl (map (fun g => (map rr (fst g), rev (snd g))) gl).
Proof.
  intros Hp. split; [unfold zlen; now rewrite map_length|]. intros k v cs v' cs' E E'.
  pose proof (eq_trans (eq_sym (RepMatch.zget_map (fun g : list spec_float * list coord => (map rr (fst g), rev (snd g))) _ _ _ E)) E') as X. cbn [fst snd] in X.
  assert (X1 : v' = map rr v) by congruence. assert (X2 : cs' = rev cs) by congruence. subst v' cs'. split; auto. split; [unfold zlen; now rewrite map_length|].
  intros m x y Ex Ey. rewrite (RepMatch.zget_map rr _ _ _ Ex) in Ey. assert (rr x = y) as <- by congruence. apply (rr_reads x [] []); auto.
  specialize (Hp v cs (zget_in _ _ _ E)). rewrite Forall_forall in Hp. apply Hp. eapply zget_in; eauto.
Qed.

(** Saving writes the groups, whether they were generated or loaded. *)
Theorem C60_resave : forall (σ : st) i t data f thr p, with_groups writable σ i t data f -> threshold_is σ i thr -> fin64 thr -> writable p = true ->
  set_count t < 2 ^ 31 -> 1 <= set_len t <= 2 ^ 30 -> set_count t * set_len t < 2 ^ 31 ->
  (forall L, 2 <= L <= set_len t -> zlen (f L) < 2 ^ 31 /\ forall v cs, In (v, cs) (f L) -> Forall (prints 16) v) ->
  exists σ1 file thr2 name f', step σ (OpSaveGroup F64 i p false) = Done F64 σ1 (VUnit F64) /\ st_files F64 σ1 p = Some file /\
    group_file file thr2 (set_count t) (set_len t) name f' /\ In name [T_ "euclidean"; T_ "euclidean_dtw"] /\ reread 6 thr thr2 /\
    (forall L, 2 <= L <= set_len t -> resaved (f L) (f' L)) /\
    sized (set_len t) f' /\ members_exist (set_count t) (set_len t) f' /\ listed_once (set_len t) f'.
Proof.
  intros σ i t data f thr p G (d0 & Hd0 & Eth) Ft Hp Hc Hlen Hsz Hpr.
  destruct (with_rready σ i t data f G ltac:(lia) ltac:(lia)) as (W & d & R & Et). destruct (rready_facts σ i d data f R) as (F1 & F2 & F3 & F4 & F5 & F6).
  pose proof R as (C & Hl30 & b & gs & B1 & B2 & B3 & B4 & B5 & B6 & B7). apply check_iff in Hd0. rewrite C in Hd0. injection Hd0 as <-.
  subst t. set (t := ds_set F64 d) in *.
  assert (Hn : exists name, gs_name F64 gs = string_of_list_ascii name /\ In name [T_ "euclidean"; T_ "euclidean_dtw"] /\ name <> [] /\ Forall (fun c => ~ white c) name).
  { destruct B7 as [B7|[B7|[]]]; rewrite <- B7; [exists (T_ "euclidean")|exists (T_ "euclidean_dtw")]; (split; [reflexivity|]); (split; [cbn; auto|]); (split; [discriminate|]); apply not_white_word; reflexivity. }
  destruct Hn as (name & En & Hnn & Hn0 & Hnw).
  destruct (rfile_reads t ltac:(lia) ltac:(lia) Hsz thr name f Ft Hn0 Hnw F3) as (thr2 & Hthr & Hfile).
  { intros L HL. destruct (Hpr L HL) as (H1 & H2). split; auto. intros v cs Hin. split; [|split; [intros c Hcc; exact (F5 L v cs c HL Hin Hcc)|exact (H2 v cs Hin)]].
    specialize (F6 L HL). apply in_zget in Hin as (k & Hk & Ek). exact (NoDup_part _ _ _ F6 (RepMatch.zget_map snd _ _ _ Ek)). }
  set (file := (print_Z 1 ++ [sp] ++ print_g 6 thr ++ [sp] ++ print_Z (set_count t) ++ [sp] ++ print_Z (set_len t) ++ [nl]) ++ rfile_text (string_of_list_ascii name) f (set_len t)) in *.
  assert (Hrev : forall L v cs, In (v, cs) (rfile_groups f L) -> exists v0, In (v0, rev cs) (f L) /\ v = map rr v0).
  { intros L v cs Hin. apply in_map_iff in Hin as ((v0, cs0) & E & Hin). cbn [fst snd] in E. assert (v = map rr v0) by congruence. assert (cs = rev cs0) by congruence. subst. exists v0. rewrite rev_involutive. auto. }
  exists (with_file F64 σ p file), file, thr2, name, (rfile_groups f). split; [|split; [|split; [exact Hfile|split; [exact Hnn|split; [exact Hthr|split; [|split; [|split]]]]]]].
  - cbn [Api.step]. unfold api_saveGroup. rewrite C. cbn [lift]. rewrite B5, Hp, Eth. cbn [negb lift init].
    rewrite (rglobal_text_saved (st_heap F64 σ) t b ltac:(lia) f gs B6). cbn [lift]. rewrite En. reflexivity.
  - unfold with_file. cbn. now rewrite String.eqb_refl.
  - intros L HL. apply resaved_of. apply (Hpr L HL).
  - intros L v cs HL Hin. destruct (Hrev L v cs Hin) as (v0 & H & ->). unfold zlen. rewrite map_length. exact (F4 L v0 _ HL H).
  - intros L v cs c HL Hin Hcc. destruct (Hrev L v cs Hin) as (v0 & H & _). apply (F5 L v0 (rev cs) c HL H). now apply -> in_rev.
  - intros L HL. unfold rfile_groups. rewrite map_map. cbn [snd]. specialize (F6 L HL). rewrite <- map_map with (f := snd) (g := @rev coord).
    eapply Permutation.Permutation_NoDup; [|exact F6]. generalize (map snd (f L)). clear. intros l. induction l as [|a l IH]; cbn; auto.
    apply Permutation.Permutation_app; auto. apply Permutation.Permutation_rev.
Qed.

Lemma loads_use (τ : st) j u data' file thr name f : loads_from writable τ j u data' file -> group_file file thr (set_count u) (set_len u) name f ->
  In name [T_ "euclidean"; T_ "euclidean_dtw"] -> sized (set_len u) f -> members_exist (set_count u) (set_len u) f -> listed_once (set_len u) f ->
  1 <= set_len u <= 2 ^ 30 -> with_groups writable τ j u data' f /\ threshold_is τ j thr.
Proof.
  intros (s0 & d & p & s1 & v & ops & W & D & Et & Hf & E & Q & R) Hg Hn Hsz Hme Hlo Hlen.
  split; [right; exists s0, d, p, file, thr, name, s1, v, ops; do 10 (split; [assumption|]); assumption|].
  subst u. assert (W1 : wf F64 s1) by (eapply (step_wf F64 F64_IO writable s0 (OpLoadGroup F64 j p)); auto; now rewrite E).
  destruct (load_general writable s0 j d data' p file thr name f D Hf ltac:(lia) Hg Hn Hsz) as [(E' & _)|(k & sp & E' & Hsp)]; rewrite E in E'; [discriminate|].
  injection E' as -> _. pose proof D as (C & b & D1 & D2 & D3 & D4).
  set (gs := mkGS F64 sp (string_of_list_ascii name) (Some k)) in *. set (d' := mkDS F64 (ds_set F64 d) (Some gs) (Some thr)) in *.
  assert (R1 : rready F64 (put_set F64 s0 j (Some d')) j d' data' f).
  { split; [apply check_put; exact (proj1 (check_inv F64 _ _ _ C))|]. split; [cbn; lia|]. exists b, gs. cbn [ds_set ds_groups put_set with_sets st_heap d'].
    do 5 (split; [assumption || reflexivity|]). split; [apply loaded_rspaces; auto; lia|]. cbn [gs_name gs]. destruct Hn as [<-|[<-|[]]]; [left|right; left]; reflexivity. }
  destruct (run_rready F64 F64_IO writable ops _ _ j d' data' f W1 R1 Q R) as (W2 & d2 & R2 & E2 & E3). exists d2. split; [|exact E3]. apply check_iff, R2.
Qed.

Lemma saves_writable (σ : st) i p s1 : step σ (OpSaveGroup F64 i p false) = Done F64 s1 (VUnit F64) -> writable p = true.
Proof.
  cbn [Api.step]. unfold api_saveGroup. destruct (checkDatasetIndex F64 σ i) as [d|e|?|]; cbn [lift]; try discriminate. destruct (ds_groups F64 d); [|discriminate].
  destruct (writable p); [auto|discriminate].
Qed.

(** One round: the groups come back with the members in reverse order and the representatives reread from 16 digits, the threshold reread
    from 6 digits; whatever the session that reads the file, and whatever happened there in between. *)
Theorem C60_round : forall (σ : st) i t data f thr file (τ : st) j u data',
  with_groups writable σ i t data f -> threshold_is σ i thr -> fin64 thr -> saves_to writable σ i file -> loads_from writable τ j u data' file ->
  set_count u = set_count t -> set_len u = set_len t ->
  set_count t < 2 ^ 31 -> 1 <= set_len t <= 2 ^ 30 -> set_count t * set_len t < 2 ^ 31 ->
  (forall L, 2 <= L <= set_len t -> zlen (f L) < 2 ^ 31 /\ forall v cs, In (v, cs) (f L) -> Forall (prints 16) v) ->
  exists thr2 f', with_groups writable τ j u data' f' /\ threshold_is τ j thr2 /\ reread 6 thr thr2 /\ forall L, 2 <= L <= set_len t -> resaved (f L) (f' L).
Proof.
  intros σ i t data f thr file τ j u data' G T Ft (p & s1 & E & Ef) Hl Ec El Hc Hlen Hsz Hpr.
  destruct (C60_resave σ i t data f thr p G T Ft (saves_writable σ i p s1 E) Hc Hlen Hsz Hpr) as (σ1 & file0 & thr2 & name & f' & E' & Ef' & Hg & Hn & Ht & Hr & H1 & H2 & H3).
  rewrite E in E'. injection E' as <-. rewrite Ef in Ef'. injection Ef' as <-. rewrite <- Ec, <- El in *.
  destruct (loads_use τ j u data' file thr2 name f' Hl Hg Hn H1 H2 H3 Hlen) as (G' & T'). exists thr2, f'. auto.
Qed.

Lemma resaved_short gl gl' : resaved gl gl' -> (forall v cs, In (v, cs) gl -> Forall short v) -> gl' = map (fun g => (fst g, rev (snd g))) gl.
Proof.
  intros (Hl & H) Hs. apply nth_error_ext'; [rewrite map_length; apply Nat2Z.inj; exact Hl|].
  intros k (v', cs') q E' Eq. destruct (nth_error gl k) as [(v, cs)|] eqn:E.
  2: { exfalso. apply nth_error_None in E. assert (X : (k < length gl')%nat) by (apply nth_error_Some; congruence). unfold zlen in Hl. change (list coord) with (list (Z * Z)) in *. lia. }
  pose proof (some_inj _ _ (eq_trans (eq_sym (map_nth_error (fun g : list spec_float * list coord => (fst g, rev (snd g))) _ _ E)) Eq)) as X. subst q. cbn [fst snd].
  destruct (H (Z.of_nat k) v cs v' cs') as (-> & R); [now apply zget_of_nth|now apply zget_of_nth|]. rewrite (short_list v v'); auto. apply (Hs v cs). eapply nth_error_In; eauto.
Qed.

(** One round, if 16 digits restore the representatives: the same representatives, the members in another order (see [C60_same_group] below). *)
Theorem C60_one_round : forall (σ : st) i t data f thr file (τ : st) j u data',
  with_groups writable σ i t data f -> threshold_is σ i thr -> fin64 thr -> saves_to writable σ i file -> loads_from writable τ j u data' file ->
  set_count u = set_count t -> set_len u = set_len t ->
  set_count t < 2 ^ 31 -> 1 <= set_len t <= 2 ^ 30 -> set_count t * set_len t < 2 ^ 31 ->
  (forall L, 2 <= L <= set_len t -> zlen (f L) < 2 ^ 31 /\ forall v cs, In (v, cs) (f L) -> Forall short v) ->
  exists f', with_groups writable τ j u data' f' /\ forall L, 2 <= L <= set_len t -> reordered (f L) (f' L).
Proof.
  intros σ i t data f thr file τ j u data' G T Ft S1 L1 Ec El Hc Hlen Hsz Hsh.
  destruct (C60_round σ i t data f thr file τ j u data' G T Ft S1 L1 Ec El Hc Hlen Hsz) as (thr2 & f1 & G1 & _ & _ & R1).
  { intros L HL. destruct (Hsh L HL) as (Z1 & Z2). split; auto. intros v cs Hin. eapply Forall_impl; [|exact (Z2 v cs Hin)]. apply short_prints. }
  exists f1. split; auto. intros L HL. destruct (R1 L HL) as (Hz & H). split; auto. intros k v cs v' cs' E E'. destruct (H k v cs v' cs' E E') as (-> & Hr).
  split; [apply short_list; auto; apply (proj2 (Hsh L HL) v cs); eapply zget_in; eauto|]. intros p. symmetry. apply in_rev.
Qed.

(** Two rounds: if 16 digits restore the representatives, the groups and the answers of every match are the ones of the session that saved first. *)
Theorem C60_two_rounds : forall (σ : st) i t data f thr file (τ : st) j u data' file' (υ : st) k w data'',
  with_groups writable σ i t data f -> threshold_is σ i thr -> fin64 thr -> saves_to writable σ i file ->
  loads_from writable τ j u data' file -> saves_to writable τ j file' -> loads_from writable υ k w data'' file' ->
  set_count u = set_count t -> set_len u = set_len t -> set_count w = set_count t -> set_len w = set_len t ->
  set_count t < 2 ^ 31 -> 1 <= set_len t <= 2 ^ 30 -> set_count t * set_len t < 2 ^ 31 ->
  (forall L, 2 <= L <= set_len t -> zlen (f L) < 2 ^ 31 /\ forall v cs, In (v, cs) (f L) -> Forall short v) ->
  (exists f2, with_groups writable υ k w data'' f2 /\ forall L, 2 <= L <= set_len t -> f2 L = f L) /\
  forall q ix a e q' ix' a' e' qv, same_values F64 t w data data'' -> query_is F64 σ q ix a e qv -> query_is F64 υ q' ix' a' e' qv -> st_ratio F64 σ = st_ratio F64 υ ->
    same_answer F64 (api_match F64 σ i q ix a e) (api_match F64 υ k q' ix' a' e').
Proof.
  intros σ i t data f thr file τ j u data' file' υ k w data'' G T Ft S1 L1 S2 L2 Ec El Ec' El' Hc Hlen Hsz Hsh.
  assert (X : exists f2, with_groups writable υ k w data'' f2 /\ forall L, 2 <= L <= set_len t -> f2 L = f L).
  { destruct (C60_round σ i t data f thr file τ j u data' G T Ft S1 L1 Ec El Hc Hlen Hsz) as (thr2 & f1 & G1 & T1 & (F1 & _) & R1).
    { intros L HL. destruct (Hsh L HL) as (Z1 & Z2). split; auto. intros v cs Hin. eapply Forall_impl; [|exact (Z2 v cs Hin)]. apply short_prints. }
    assert (E1 : forall L, 2 <= L <= set_len t -> f1 L = map (fun g => (fst g, rev (snd g))) (f L)) by (intros L HL; apply resaved_short; [auto|apply (Hsh L HL)]).
    assert (Hsh1 : forall L, 2 <= L <= set_len u -> zlen (f1 L) < 2 ^ 31 /\ forall v cs, In (v, cs) (f1 L) -> Forall short v).
    { intros L HL. rewrite El in HL. rewrite (E1 L HL). destruct (Hsh L HL) as (Z1 & Z2). split; [unfold zlen in *; now rewrite map_length|].
      intros v cs Hin. apply in_map_iff in Hin as ((v0, cs0) & Ei & Hin). cbn [fst snd] in Ei. apply (f_equal fst) in Ei. cbn [fst] in Ei. subst v0. eauto. }
    destruct (C60_round τ j u data' f1 thr2 file' υ k w data'' G1 T1 F1 S2 L2 ltac:(lia) ltac:(lia) ltac:(lia) ltac:(lia) ltac:(rewrite Ec, El; lia)) as (thr3 & f2 & G2 & _ & _ & R2).
    { intros L HL. destruct (Hsh1 L HL) as (Z1 & Z2). split; auto. intros v cs Hin. eapply Forall_impl; [|exact (Z2 v cs Hin)]. apply short_prints. }
    exists f2. split; auto. intros L HL. rewrite (resaved_short _ _ (R2 L ltac:(lia)) (proj2 (Hsh1 L ltac:(lia)))), (E1 L HL), map_map. cbn [fst snd].
    rewrite <- (map_id (f L)) at 2. apply map_ext. intros (v, cs). cbn [fst snd]. now rewrite rev_involutive. }
  split; auto. destruct X as (f2 & G2 & E2). intros q ix a e q' ix' a' e' qv V Q Q' Er.
  eapply (C60_same_answer σ υ i t data f k w data'' f2); eauto; try lia. intros L HL. symmetry. auto.
Qed.

(** Groups with the same representatives and members in another order (as after one round): both matches answer with members of the same
    group, and neither distance beats the other by more than the last step of rounding. *)
Theorem C60_same_group : forall (σ τ : st) i t data f j u data' f' q ix a e q' ix' a' e' qv,
  with_groups writable σ i t data f -> with_groups writable τ j u data' f' -> same_values F64 t u data data' ->
  (forall L, 2 <= L <= set_len t -> reordered (f L) (f' L) /\ forall v cs, In (v, cs) (f L) -> Forall small64 v /\ cs <> []) ->
  Forall small64 data -> Forall small64 data' -> Forall small64 qv -> set_len t <= 2 ^ 20 -> 1 <= set_count t -> ratio_ok64 (st_ratio F64 σ) (set_len t) ->
  query_is F64 σ q ix a e qv -> query_is F64 τ q' ix' a' e' qv -> st_ratio F64 σ = st_ratio F64 τ -> 2 <= zlen qv <= set_len t ->
  (exists L v cs, 2 <= L <= set_len t /\ In (v, cs) (f L) /\ in_reach (st_ratio F64 σ) (zlen qv) L) ->
  exists σ' c τ' c' L v cs p p',
    api_match F64 σ i q ix a e = Done F64 σ' (VCand F64 c) /\ api_match F64 τ j q' ix' a' e' = Done F64 τ' (VCand F64 c') /\
    denotes F64 (st_heap F64 σ') t data c L p /\ denotes F64 (st_heap F64 τ') u data' c' L p' /\ In (v, cs) (f L) /\ In p cs /\ In p' cs /\
    dtw_is F64 (st_ratio F64 σ) qv (sub_values F64 data (set_len t) L p) (cand_dist c) /\
    dtw_is F64 (st_ratio F64 σ) qv (sub_values F64 data (set_len t) L p') (cand_dist c') /\
    not_better64 (cand_dist c) (cand_dist c') /\ not_better64 (cand_dist c') (cand_dist c).
Proof.
  intros σ τ i t data f j u data' f' q ix a e q' ix' a' e' qv G G' V Hf Hd Hd' Hq Hlen Hc Hr Q Q' Er Hql (L0 & v0 & cs0 & HL0 & Hin0 & Hr0).
  pose proof V as (V1 & V2 & V3).
  destruct (with_rready σ i t data f G ltac:(lia) ltac:(lia)) as (_ & d & R & Et). destruct (with_rready τ j u data' f' G' ltac:(lia) ltac:(lia)) as (_ & d' & R' & Et').
  assert (Hback : forall L v cs', 2 <= L <= set_len t -> In (v, cs') (f' L) -> exists cs, In (v, cs) (f L) /\ forall p, In p cs' <-> In p cs).
  { intros L v cs' HL Hin. destruct (Hf L HL) as ((Z1 & Z2) & _). apply in_zget in Hin as (k & Hk & Ek). rewrite Z1 in Hk. destruct (zget_Ok (f L) k Hk) as ((w & cs) & Ew).
    destruct (Z2 k w cs v cs' Ew Ek) as (-> & X). exists cs. split; auto. eapply zget_in; eauto. }
  assert (A : ready_asks σ i d data f q ix a e qv).
  { split; auto. rewrite Et. do 2 (split; auto). split; [intros L v cs HL Hin; exact (proj1 (proj2 (Hf L HL) v cs Hin))|]. do 5 (split; auto). }
  assert (A' : ready_asks τ j d' data' f' q' ix' a' e' qv).
  { split; auto. rewrite Et', <- Er, <- V1, <- V2. do 2 (split; auto). split; [|do 5 (split; auto)].
    intros L v cs' HL Hin. destruct (Hback L v cs' HL Hin) as (cs & Hin' & _). exact (proj1 (proj2 (Hf L HL) v cs Hin')). }
  destruct (ready_match _ _ _ _ _ _ _ _ _ _ A) as (σ' & c & L & p & v & cs & E & Dn & Hin & Hm & _); [exists L0, v0, cs0; rewrite Et; auto|].
  destruct (ready_match _ _ _ _ _ _ _ _ _ _ A') as (τ' & c' & L' & p' & v' & cs' & E' & Dn' & Hin' & Hm' & _).
  { destruct (proj1 (Hf L0 HL0)) as (Z1 & Z2). apply in_zget in Hin0 as (k & Hk & Ek). rewrite <- Z1 in Hk. destruct (zget_Ok (f' L0) k Hk) as ((w & cs') & Ew).
    exists L0, w, cs'. rewrite Et', <- V2, <- Er. split; auto. split; auto. eapply zget_in; eauto. }
  rewrite Et in *. rewrite Et' in *. rewrite <- Er in *.
  assert (HL : 2 <= L <= set_len t) by apply Dn. assert (HL' : 2 <= L' <= set_len t) by (rewrite V2; apply Dn').
  destruct Hm as [(X & _)|(Hp & Hdw & Hlt & Hall)]; [exfalso; exact (proj2 (proj2 (Hf L HL) v cs Hin) X)|].
  destruct (Hback L' v' cs' HL' Hin') as (cs2 & Hin2 & Heq2).
  destruct Hm' as [(X & _)|(Hp' & Hdw' & Hlt' & Hall')].
  { exfalso. apply (proj2 (proj2 (Hf L' HL') v' cs2 Hin2)). subst cs'. destruct cs2 as [|x l]; auto. destruct (proj2 (Heq2 x) (or_introl eq_refl)). }
  destruct (rready_group F64 σ i d data f q ix a e τ j d' data' f' q' ix' a' e' qv σ' c τ' c' R R') as (M & k & w1 & cs1 & w2 & cs3 & HM & W1 & W2 & P1 & P2); auto.
  { rewrite Et, Et'. exact V. }
  { rewrite Et. intros M HM. apply reordered_fst, (Hf M HM). }
  rewrite Et in HM. destruct (at_place _ _ _ _ _ _ _ _ Dn P1 Hlt) as (-> & Hp1). destruct (at_place _ _ _ _ _ _ _ _ Dn' P2 Hlt') as (EL & Hp3). subst L'.
  destruct (proj2 (proj1 (Hf L HL)) k w1 cs1 w2 cs3 W1 W2) as (-> & Heq).
  destruct (rready_facts _ _ _ _ _ R) as (_ & _ & _ & _ & _ & F6). destruct (rready_facts _ _ _ _ _ R') as (_ & _ & _ & _ & _ & F6'). rewrite Et in F6. rewrite Et', <- V2 in F6'.
  assert (K1 : (v, cs) = (w1, cs1)).
  { apply in_zget in Hin as (k1 & _ & Ek). assert (k1 = k) by (eapply (one_part (map snd (f L)) k1 k cs cs1 p (F6 L HL)); auto; [exact (RepMatch.zget_map snd _ _ _ Ek)|exact (RepMatch.zget_map snd _ _ _ W1)]). subst k1. pose proof (eq_trans (eq_sym Ek) W1) as X. injection X as -> ->. reflexivity. }
  assert (K2 : (v', cs') = (w1, cs3)).
  { apply in_zget in Hin' as (k1 & _ & Ek). assert (k1 = k) by (eapply (one_part (map snd (f' L)) k1 k cs' cs3 p' (F6' L HL)); auto; [exact (RepMatch.zget_map snd _ _ _ Ek)|exact (RepMatch.zget_map snd _ _ _ W2)]). subst k1. pose proof (eq_trans (eq_sym Ek) W2) as X. injection X as -> ->. reflexivity. }
  injection K1 as <- <-. injection K2 as _ <-.
  assert (SV : forall p0, In p0 cs -> sub_values F64 data (set_len t) L p0 = sub_values F64 data' (set_len u) L p0).
  { intros p0 H0. destruct (rready_facts _ _ _ _ _ R) as (_ & B1 & _ & _ & F5 & _). destruct (rready_facts _ _ _ _ _ R') as (_ & B2 & _). rewrite Et in B1, F5. rewrite Et' in B2.
    destruct (F5 L v cs p0 HL Hin H0) as (S1 & S2 & S3). unfold sub_values. rewrite <- V2. eapply zslice_prefix; eauto. all: nia. }
  exists σ', c, τ', c', L, v, cs, p, p'. do 6 (split; [assumption|]). assert (Hpc : In p' cs) by (apply Heq; exact Hp3). split; [exact Hpc|]. split; [exact Hdw|].
  rewrite <- (SV p' Hpc) in Hdw'. split; [exact Hdw'|]. split.
  - destruct (Hall p' Hpc) as (w & Hw & Hb). assert (w = cand_dist c') as <- by (unfold dtw_is in *; congruence). exact Hb.
  - destruct (Hall' p (proj2 (Heq p) Hp)) as (w & Hw & Hb). rewrite <- (SV p Hp) in Hw. assert (w = cand_dist c) as <- by (unfold dtw_is in *; congruence). exact Hb.
Qed.
End Reload.

(** ** Cases: the dataset of Properties_Groups.v, saved and loaded twice in the same session. *)
Lemma round_here (σ : st F64) i t data f thr : with_groups (fun _ => true) σ i t data f -> threshold_is σ i thr -> fin64 thr ->
  set_count t < 2 ^ 31 -> 1 <= set_len t <= 2 ^ 30 -> set_count t * set_len t < 2 ^ 31 ->
  (forall L, 2 <= L <= set_len t -> zlen (f L) < 2 ^ 31 /\ forall v cs, In (v, cs) (f L) -> Forall (prints 16) v) ->
  exists file τ, saves_to (fun _ => true) σ i file /\ loads_from (fun _ => true) τ i t data file /\ st_ratio F64 τ = st_ratio F64 σ /\ exists d, dataset F64 τ i d data /\ ds_set F64 d = t.
Proof.
  intros G T Ft Hc Hlen Hsz Hpr.
  destruct (C60_resave (fun _ => true) σ i t data f thr "p" G T Ft eq_refl Hc Hlen Hsz Hpr) as (σ1 & file & thr2 & name & f' & E & Ef & Hg & Hn & Ht & Hr & H1 & H2 & H3).
  destruct (with_rready (fun _ => true) σ i t data f G ltac:(lia) ltac:(lia)) as (W & d & R & Et).
  assert (A : after F64 (step F64 F64_IO (fun _ => true) σ (OpSaveGroup F64 i "p" false)) = Some σ1) by now rewrite E.
  assert (W1 : wf F64 σ1) by (eapply (step_wf F64 F64_IO (fun _ => true)); eauto).
  destruct (step_rready F64 F64_IO (fun _ => true) σ _ σ1 i d data f W R A I) as (d1 & R1 & Ed1 & _).
  assert (D1 : dataset F64 σ1 i d1 data) by (destruct R1 as (C & _ & b & gs & B1 & B2 & B3 & B4 & _); split; auto; exists b; auto).
  rewrite Et in Ed1. rewrite <- Ed1 in *.
  destruct (C40_file (fun _ => true) σ1 i d1 data "p" file thr2 name f' D1 ltac:(lia) Ef Hg Hn H1 H2 H3) as (σ2 & d2 & gs & E2 & D2 & X1 & X2 & X3 & X4 & X5 & X6 & X7 & X8).
  exists file, σ2. split; [exists "p"%string, σ1; auto|]. split.
  { exists σ1, d1, "p"%string, σ2, (VInt F64 (group_total f' (set_len (ds_set F64 d1)))), []. do 5 (split; [assumption || reflexivity|]). split; [constructor|reflexivity]. }
  split; [|exists d2; auto]. rewrite X8. revert E. cbn [step]. unfold api_saveGroup. destruct (checkDatasetIndex F64 σ i) as [e|?|?|]; cbn [lift]; try discriminate. destruct (ds_groups F64 e); [|discriminate].
  cbn [negb]. destruct (init (ds_thr F64 e)) as [x|?|?|]; cbn [lift]; try discriminate. destruct (global_saveGroups _ _ _ _ _); cbn [lift]; try discriminate. intros Q. injection Q as <-. reflexivity.
Qed.

Lemma short_ints l : forallb (fun z => (Z.abs z <? 10 ^ 15)) l = true -> Forall short (map f64_ofZ l).
Proof. intros H. apply Forall_forall. intros x Hx. apply in_map_iff in Hx as (z & <- & Hz). apply short_Z. rewrite forallb_forall in H. specialize (H z Hz). lia. Qed.
Lemma ex_with : exists σ f, with_groups (fun _ => true) σ 0 ex_set (map f64_ofZ ex_ints) f /\ threshold_is σ 0 (f64_ofZ 1) /\
  (forall L, 2 <= L <= set_len ex_set -> (zlen (f L) < 2 ^ 31 /\ f L <> []) /\ forall v cs, In (v, cs) (f L) -> Forall short v /\ Forall small64 v /\ cs <> []) /\
  query_is F64 σ 0 1 1 3 (map f64_ofZ [1; 3]) /\ st_ratio F64 σ = nzero F64.
Proof.
  destruct (ex_earlier F64 F64_IO (fun _ => true) fin64 pos64 f64_ofZ (f64_ofZ 1)) as (σ & G & Hr & Q); [vm_compute; reflexivity|]. exists σ.
  pose proof (half64_lt_inf _ (proj1 (ofZ_exact 1 ltac:(lia)))) as Hh.
  destruct (earlier_ready F64 F64_IO (fun _ => true) fin64 pos64 σ 0 (f64_ofZ 1) _ _ G ltac:(cbn; lia) Hh) as (W & gmf & d & R & Et & Eth).
  exists (fun L => listed (map f64_ofZ ex_ints) (set_len ex_set) L (gmf L)).
  split; [left; exists (f64_ofZ 1), gmf; split; [exact G|]; split; [exact Hh|]; intros L HL; split; auto; rewrite <- Et in *; now apply (ready_now F64 σ 0 d _ gmf L (gmf L) R HL)|].
  split; [exists d; split; [apply check_iff, R|exact Eth]|]. split; [|split; auto].
  intros L HL. rewrite <- Et in HL.
  assert (H1 : forall ms, In ms (gmf L) -> ms <> []) by (intros ms Hms; exact (proj1 (ready_members F64 σ 0 d _ gmf R L ms HL Hms))).
  pose proof R as (_ & _ & b & gs & _ & _ & B3 & B4 & _ & B6 & B7 & _).
  assert (H2 : NoDup (concat (gmf L))) by (destruct (proj2 B6 L HL) as (ls & _ & Hls); apply Hls).
  rewrite Et in *. assert (H3 : forall c, In c (concat (gmf L)) -> valid ex_set L c) by (intros c Hc; apply B7; auto).
  split; [split|].
  - unfold listed, zlen. rewrite map_length. fold (zlen (gmf L)). pose proof (concat_len _ H1) as X.
    pose proof (int_bound ex_set ltac:(cbn; lia) ltac:(cbn; lia) ltac:(cbn; lia) L ltac:(lia) _ H2 H3). exact (Z.le_lt_trans _ _ _ X H).
  - intros E. assert (X : In (0, 0) (concat (gmf L))) by (apply B7; auto; unfold valid; cbn in *; lia). unfold listed in E. apply map_eq_nil in E. rewrite E in X. destruct X.
  - intros v cs Hin. apply in_map_iff in Hin as (ms & E & Hms). assert (E1 : v = sub_values F64 (map f64_ofZ ex_ints) (set_len ex_set) L (hd (0, 0) ms)) by congruence. assert (E2 : cs = ms) by congruence. subst v cs.
    assert (S : forall P : spec_float -> Prop, Forall P (map f64_ofZ ex_ints) -> Forall P (sub_values F64 (map f64_ofZ ex_ints) (set_len ex_set) L (hd (0, 0) ms))).
    { intros P HP. apply Forall_forall. intros x Hx. rewrite Forall_forall in HP. apply HP. eapply in_slice; eauto. }
    split; [apply S, short_ints; reflexivity|]. split; [apply S; now apply small64_Zs|auto].
Qed.
(** The hypotheses of [C60_resave], [C60_round], [C60_two_rounds], with matches before and after that find something. *)
Example C60_case : exists σ f thr file τ file' υ, with_groups (fun _ => true) σ 0 ex_set (map f64_ofZ ex_ints) f /\ threshold_is σ 0 thr /\ fin64 thr /\
  saves_to (fun _ => true) σ 0 file /\ loads_from (fun _ => true) τ 0 ex_set (map f64_ofZ ex_ints) file /\
  saves_to (fun _ => true) τ 0 file' /\ loads_from (fun _ => true) υ 0 ex_set (map f64_ofZ ex_ints) file' /\
  (forall L, 2 <= L <= set_len ex_set -> zlen (f L) < 2 ^ 31 /\ forall v cs, In (v, cs) (f L) -> Forall short v /\ Forall small64 v /\ cs <> []) /\
  set_count ex_set < 2 ^ 31 /\ 1 <= set_len ex_set <= 2 ^ 30 /\ set_count ex_set * set_len ex_set < 2 ^ 31 /\
  query_is F64 σ 0 1 1 3 (map f64_ofZ [1; 3]) /\ query_is F64 τ 0 1 1 3 (map f64_ofZ [1; 3]) /\ query_is F64 υ 0 1 1 3 (map f64_ofZ [1; 3]) /\
  st_ratio F64 σ = st_ratio F64 τ /\ st_ratio F64 σ = st_ratio F64 υ /\ ratio_ok64 (st_ratio F64 σ) (set_len ex_set) /\
  exists L v cs, 2 <= L <= set_len ex_set /\ In (v, cs) (f L) /\ in_reach (st_ratio F64 σ) 2 L.
Proof.
  destruct ex_with as (σ & f & G & T & Hf & Q & Hr). pose proof (proj1 (ofZ_exact 1 ltac:(lia))) as Ft. set (data := map f64_ofZ ex_ints) in *.
  assert (Hc : set_count ex_set < 2 ^ 31) by (cbn; lia). assert (Hl : 1 <= set_len ex_set <= 2 ^ 30) by (cbn; lia). assert (Hs : set_count ex_set * set_len ex_set < 2 ^ 31) by (cbn; lia).
  assert (Hq : forall (τ : st F64) d, dataset F64 τ 0 d data -> ds_set F64 d = ex_set -> query_is F64 τ 0 1 1 3 (map f64_ofZ [1; 3])).
  { intros τ d D Ed. exists d, data. split; auto. rewrite Ed. split; [cbn; lia|]. right. split; [lia|]. split; [cbn; lia|reflexivity]. }
  assert (Hsh : forall L, 2 <= L <= set_len ex_set -> zlen (f L) < 2 ^ 31 /\ forall v cs, In (v, cs) (f L) -> Forall short v) by (intros L HL; destruct (Hf L HL) as ((X & _) & Y); split; auto; intros v cs Hin; exact (proj1 (Y v cs Hin))).
  assert (Hpr : forall L, 2 <= L <= set_len ex_set -> zlen (f L) < 2 ^ 31 /\ forall v cs, In (v, cs) (f L) -> Forall (prints 16) v).
  { intros L HL. destruct (Hsh L HL) as (X & Y). split; auto. intros v cs Hin. eapply Forall_impl; [|exact (Y v cs Hin)]. apply short_prints. }
  destruct (round_here σ 0 ex_set data f (f64_ofZ 1) G T Ft Hc Hl Hs Hpr) as (file & τ & S1 & L1 & Er1 & d1 & D1 & Ed1).
  destruct (C60_round (fun _ => true) σ 0 ex_set data f (f64_ofZ 1) file τ 0 ex_set data G T Ft S1 L1 eq_refl eq_refl Hc Hl Hs Hpr) as (thr1 & f1 & G1 & T1 & (F1 & _) & R1).
  destruct (round_here τ 0 ex_set data f1 thr1 G1 T1 F1 Hc Hl Hs) as (file' & υ & S2 & L2 & Er2 & d2 & D2 & Ed2).
  { intros L HL. rewrite (resaved_short _ _ (R1 L HL) (proj2 (Hsh L HL))). destruct (Hpr L HL) as (X & Y). split; [unfold zlen in *; now rewrite map_length|].
    intros v cs Hin. apply in_map_iff in Hin as ((v0, cs0) & Ei & Hin). apply (f_equal fst) in Ei. cbn [fst] in Ei. subst v0. exact (Y v cs0 Hin). }
  exists σ, f, (f64_ofZ 1), file, τ, file', υ. do 7 (split; [assumption|]).
  split; [intros L HL; destruct (Hf L HL) as ((X & _) & Y); auto|]. do 3 (split; [assumption|]). split; [exact Q|]. split; [exact (Hq τ d1 D1 Ed1)|]. split; [exact (Hq υ d2 D2 Ed2)|].
  split; [auto|]. split; [congruence|]. rewrite Hr. split.
  - unfold ratio_ok64. change (nzero F64) with (S754_zero false). split; [split; [reflexivity|exact I]|]. cbn [val]. split; [lra|]. rewrite Rmult_0_r. apply IZR_le. unfold int_max. lia.
  - destruct (Hf 2 ltac:(cbn; lia)) as ((_ & Hne) & _). destruct (f 2) as [|(v, cs) gl] eqn:E; [contradiction|]. exists 2, v, cs. split; [cbn; lia|]. split; [rewrite E; now left|].
    exists 0. split; [vm_compute; reflexivity|cbn; lia].
Qed.

(** One round can change which of two equally near members a match answers with (the members are listed in reverse order): five equal series. *)
Definition tie_st : Api.st F64 := mkSt F64 [Some (map f64_ofZ [1; 2; 1; 2; 1; 2; 1; 2; 1; 2])] [Some (mkDS F64 (mkSet (Some 0%nat) 2 5 "ex" false) None None)] 1 (nzero F64) false (fun _ => None).
Definition tie_group : list (op F64) := [OpGroup F64 0 (f64_ofZ 1) (fun _ => false)].
Definition tie_round : list (op F64) := [OpSaveGroup F64 0 "g" false; OpLoadGroup F64 0 "g"].
Definition tie_answer (s : Api.st F64) (ops : list (op F64)) : option Z :=
  match run F64 F64_IO (fun _ => true) s ops with
  | Some σ => match api_match F64 σ 0 0 2 (-1) (-1) with Done _ _ (VCand _ c) => Some (ts_index (cand_data c)) | _ => None end
  | None => None end.
Lemma tie_use s ops k : tie_answer s ops = Some k -> exists σ σ' c, run F64 F64_IO (fun _ => true) s ops = Some σ /\ api_match F64 σ 0 0 2 (-1) (-1) = Done F64 σ' (VCand F64 c) /\ ts_index (cand_data c) = k.
Proof.
  unfold tie_answer. destruct (run F64 F64_IO (fun _ => true) s ops) as [σ|]; [|discriminate]. intros H. exists σ.
  destruct (api_match F64 σ 0 0 2 (-1) (-1)) as [σ' [| | | | | ]| | |]; try discriminate H. injection H as <-. eauto.
Qed.
Theorem C60_tie_witness : exists (s σ τ σ' τ' : Api.st F64) c c', run F64 F64_IO (fun _ => true) s tie_group = Some σ /\ run F64 F64_IO (fun _ => true) s (tie_group ++ tie_round) = Some τ /\
  api_match F64 σ 0 0 2 (-1) (-1) = Done F64 σ' (VCand F64 c) /\ api_match F64 τ 0 0 2 (-1) (-1) = Done F64 τ' (VCand F64 c') /\
  ts_index (cand_data c) = 4 /\ ts_index (cand_data c') = 0.
Proof.
  assert (H1 : tie_answer tie_st tie_group = Some 4) by (vm_compute; reflexivity). assert (H2 : tie_answer tie_st (tie_group ++ tie_round) = Some 0) by (vm_compute; reflexivity).
  destruct (tie_use _ _ _ H1) as (σ & σ' & c & E1 & E2 & E3). destruct (tie_use _ _ _ H2) as (τ & τ' & c' & E4 & E5 & E6). exists tie_st, σ, τ, σ', τ', c, c'. auto 10.
Qed.
