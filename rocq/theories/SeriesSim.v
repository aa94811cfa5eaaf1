(** * The series of pointers simulate the series of values, call by call. *)
From Coq Require Import ZArith Bool Lia String List.
From Verif Require Import Outcome Num Lemire Deque Distance TimeSeries SeriesMem SeriesSpec SeriesProofs.
Import ListNotations.
Open Scope Z_scope.

Lemma list_set_same {A} (l : list A) n x : nth_error l n = Some x -> list_set l n x = l.
Proof. revert n. induction l as [|y l IH]; intros [|n] E; cbn in *; try discriminate; [congruence|]. f_equal. auto. Qed.
Lemma list_set_twice {A} (l : list A) n x y : list_set (list_set l n x) n y = list_set l n y.
Proof. revert n. induction l as [|z l IH]; intros [|n]; cbn; auto. f_equal. auto. Qed.
Lemma zget_map {A B} (f : A -> B) l i x : zget l i = Ok x -> zget (map f l) i = Ok (f x).
Proof.
  unfold zget. destruct (i <? 0); [discriminate|]. rewrite nth_error_map. destruct (nth_error l (Z.to_nat i)); cbn; [|discriminate]. congruence.
Qed.
Lemma list_set_map {A B} (f : A -> B) l n x : list_set (map f l) n (f x) = map f (list_set l n x).
Proof. revert n. induction l as [|z l IH]; intros [|n]; cbn; auto. f_equal. auto. Qed.
Lemma zset_map {A B} (f : A -> B) l i x l' : zset l i x = Ok l' -> zset (map f l) i (f x) = Ok (map f l').
Proof.
  unfold zset, zlen. rewrite map_length. destruct ((i <? 0) || (Z.of_nat (length l) <=? i)); [discriminate|].
  intros E. injection E as <-. now rewrite list_set_map.
Qed.
Lemma zlen_map {A B} (f : A -> B) l : zlen (map f l) = zlen l.
Proof. unfold zlen. now rewrite map_length. Qed.
Lemma zslice_map {A B} (f : A -> B) l s n : zslice (map f l) s n = map f (zslice l s n).
Proof. unfold zslice. now rewrite skipn_map, firstn_map. Qed.
Lemma map_zrepeat {A B} (f : A -> B) x n : map f (zrepeat x n) = zrepeat (f x) n.
Proof. unfold zrepeat. induction (Z.to_nat n); cbn; congruence. Qed.
Lemma zslice_all {A} (l : list A) n : zlen l = n -> zslice l 0 n = l.
Proof. intros <-. unfold zslice, zlen. rewrite Nat2Z.id. cbn [Z.to_nat skipn]. apply firstn_all. Qed.
Lemma nth_error_last {A} (l : list A) x : nth_error (l ++ [x]) (length l) = Some x.
Proof. rewrite nth_error_app2, Nat.sub_diag by lia. reflexivity. Qed.
Lemma list_set_last {A} (l : list A) x y : list_set (l ++ [x]) (length l) y = l ++ [y].
Proof. induction l as [|z l IH]; cbn; auto. now f_equal. Qed.

(** Two loops in step. *)
Lemma for_sim {S S'} (J : Z -> S -> S' -> Prop) lo hi (f : Z -> S -> outcome S) (g : Z -> S' -> outcome S') s s' : lo <= hi -> J lo s s' ->
  (forall k a b, lo <= k < hi -> J k a b -> match f k a with Ok a' => exists b', g k b = Ok b' /\ J (k + 1) a' b' | Throw _ => False | _ => True end) ->
  match for_ lo hi f s with Ok r => exists r', for_ lo hi g s' = Ok r' /\ J hi r r' | Throw _ => False | _ => True end.
Proof.
  intros Hle HJ Hs. unfold for_. remember (Z.to_nat (hi - lo)) as n eqn:En. revert lo s s' Hle HJ Hs En.
  induction n as [|n IH]; intros lo s s' Hle HJ Hs En; cbn [loop].
  - exists s'. split; auto. replace hi with lo by lia. auto.
  - pose proof (Hs lo s s' ltac:(lia) HJ) as H. destruct (f lo s) as [a| | |]; cbn [bind]; auto. destruct H as (b & E & HJ'). rewrite E. cbn [bind].
    apply IH; auto; try lia. intros k a0 b0 Hk. apply Hs. lia.
Qed.
(** The envelope never throws. *)
Definition quiet_ {A} (o : outcome A) : Prop := forall e, o <> Throw e.
Lemma quiet_bind {A B} (o : outcome A) (k : A -> outcome B) : quiet_ o -> (forall a, quiet_ (k a)) -> quiet_ (bind o k).
Proof. intros H Hk. destruct o; cbn [bind]; auto; intros e'; try discriminate. intros E. injection E as ->. now apply (H e'). Qed.
Lemma quiet_Ok {A} (a : A) : quiet_ (Ok a). Proof. intros e. discriminate. Qed.
Lemma quiet_if {A} (b : bool) (x y : outcome A) : quiet_ x -> quiet_ y -> quiet_ (if b then x else y).
Proof. now destruct b. Qed.
Lemma quiet_zget {A} (l : list A) i : quiet_ (zget l i).
Proof. intros e. unfold zget. destruct (i <? 0); [discriminate|]. destruct (nth_error l (Z.to_nat i)); discriminate. Qed.
Lemma quiet_zset {A} (l : list A) i x : quiet_ (zset l i x).
Proof. intros e. unfold zset. destruct ((i <? 0) || (zlen l <=? i)); discriminate. Qed.
Lemma quiet_for {S} lo hi (f : Z -> S -> outcome S) s : (forall k a, quiet_ (f k a)) -> quiet_ (for_ lo hi f s).
Proof.
  intros H. unfold for_. generalize (Z.to_nat (hi - lo)). intros n. revert lo s. induction n as [|n IH]; intros lo s; cbn [loop]; [apply quiet_Ok|].
  apply quiet_bind; auto.
Qed.
Lemma quiet_while {S} n (c : S -> outcome bool) (f : S -> outcome S) s : (forall a, quiet_ (c a)) -> (forall a, quiet_ (f a)) -> quiet_ (while_ n c f s).
Proof.
  intros Hc Hf. revert s. induction n as [|n IH]; intros s; cbn [while_]; (apply quiet_bind; [auto|]; intros []; [|apply quiet_Ok]).
  - intros e. discriminate.
  - apply quiet_bind; auto.
Qed.
Ltac quiet_tac := cbv zeta; repeat first [solve [auto 2] | apply quiet_bind; [|intros] | apply quiet_Ok | apply quiet_zget | apply quiet_zset | apply quiet_if
  | progress (unfold quiet_; intros; discriminate) ].
Lemma quiet_lemire N (t : list (num N)) r : quiet_ (lower_upper_lemire N t r).
Proof.
  assert (Qpush : forall d v, quiet_ (dq_push_back d v)) by (intros; unfold dq_push_back; quiet_tac).
  assert (Qpop : forall d, quiet_ (dq_pop_back d)) by (intros; unfold dq_pop_back; quiet_tac).
  assert (Qread : forall d i, quiet_ (dq_read d i)) by (intros d i; unfold dq_read; quiet_tac; destruct a; quiet_tac).
  assert (Qfront : forall d, quiet_ (dq_front d)) by (intros; unfold dq_front; quiet_tac; auto).
  assert (Qback : forall d, quiet_ (dq_back d)) by (intros; unfold dq_back; quiet_tac; auto).
  assert (Qemit : forall k s, quiet_ (emit N t k s)) by (intros; unfold emit; quiet_tac; auto).
  assert (Qpw : forall ti gt d, quiet_ (pop_while N t ti gt d)).
  { intros. apply quiet_while; auto. intros a. destruct (dq_empty a); quiet_tac; auto. }
  unfold lower_upper_lemire. apply quiet_bind; [auto|intros]. apply quiet_bind; [auto|intros]. apply quiet_bind.
  - apply quiet_for. intros k s. unfold lem_body1. quiet_tac; auto.
  - intros s. apply quiet_bind; [|intros; apply quiet_Ok]. apply quiet_for. intros k s'. unfold lem_body2. quiet_tac; auto.
Qed.

Section SeriesSim.
Context (N : NumOps).
Local Notation T := (num N).
Local Notation good := (good N).

Lemma m_get_ok (m : mem N) b l : nth_error m b = Some (Some l) -> m_get N m b = Ok l.
Proof. unfold m_get. now intros ->. Qed.
Lemma cell_map (l : list T) i x : zget l i = Ok x -> cell N (map Some l) i = Ok x.
Proof. intros E. unfold cell. rewrite (zget_map Some l i x E). reflexivity. Qed.
Lemma all_set_map (l : list T) : all_set N (map Some l) = Ok l.
Proof. induction l as [|x l IH]; cbn; auto. now rewrite IH. Qed.
Lemma heap_get_nth (h : heap N) b l : heap_get N h b = Ok l -> nth_error h b = Some (Some l).
Proof. unfold heap_get. destruct (nth_error h b) as [[l'|]|]; congruence. Qed.

(** The arrays of the datasets hold their values. *)
Definition bufs_ok (m : mem N) (bufs : list nat) (h : heap N) : Prop := length bufs = length h /\
  forall b p l, nth_error bufs b = Some p -> nth_error h b = Some (Some l) -> nth_error m p = Some (Some (map Some l)).
Lemma good_bufs_ok X own m bufs objs h ss : good X own m bufs objs h ss -> bufs_ok m bufs h.
Proof.
  intros G. split; [apply (g_bufs _ _ _ _ _ _ _ _ G)|]. intros b p l Ep El. pose proof (g_buf _ _ _ _ _ _ _ _ G b p Ep) as H. rewrite El in H. apply H.
Qed.
Lemma buf_of m bufs h b l p : bufs_ok m bufs h -> nth_error bufs b = Some p -> heap_get N h b = Ok l -> nth_error m p = Some (Some (map Some l)).
Proof. intros (_ & H) Ep El. apply (H b); auto. now apply heap_get_nth. Qed.

Lemma get_sim m bufs h o t k : bufs_ok m bufs h -> rep N m bufs o t ->
  match ts_get N h t k with Ok x => obj_get N m o k = Ok x | Throw e => obj_get N m o k = Throw e | _ => True end.
Proof.
  intros B ((_ & Es & _ & El) & D & _). unfold ts_get, obj_get. rewrite El. destruct ((k <? 0) || (ts_len t <=? k)); [reflexivity|].
  unfold obj_read. rewrite Es. unfold data_rep in D. destruct (ts_src t) as [b base|v|]; auto.
  - destruct D as (_ & p & Ep & ->). destruct (heap_get N h b) as [l| | |] eqn:Eh; cbn [bind]; auto.
    2: { unfold heap_get in Eh. destruct (nth_error h b) as [[?|]|]; discriminate. }
    rewrite (m_get_ok m p _ (buf_of m bufs h b l p B Ep Eh)). cbn [bind]. pose proof (quiet_zget l (base + ts_start t + k)) as Q.
    destruct (zget l (base + ts_start t + k)) eqn:Eg; auto; [now apply cell_map|]. exfalso. now apply (Q e).
  - destruct D as (_ & Ez & _ & p & -> & Em). rewrite (m_get_ok m p _ Em). cbn [bind]. pose proof (quiet_zget v (ts_start t + k)) as Q.
    cbn [Z.add]. destruct (zget v (ts_start t + k)) eqn:Eg; auto; [now apply cell_map|]. exfalso. now apply (Q e).
Qed.
Lemma read_sim m bufs h o t v : bufs_ok m bufs h -> o_start o = ts_start t -> o_len o = ts_len t -> data_rep N m bufs o t -> ts_read N h t = Ok v ->
  obj_values N m o = Ok v.
Proof.
  intros B Es El D E. unfold ts_read in E. unfold obj_values. rewrite Es, El. unfold data_rep in D. destruct (ts_src t) as [b base|w|].
  - destruct D as (_ & p & Ep & ->). destruct (heap_get N h b) as [l| | |] eqn:Eh; try discriminate. cbn [bind] in E.
    rewrite (m_get_ok m p _ (buf_of m bufs h b l p B Ep Eh)). cbn [bind]. unfold window in E. destruct (ts_len t <=? 0); [exact E|]. rewrite zlen_map.
    destruct ((base + ts_start t <? 0) || (zlen l <? base + ts_start t + ts_len t)); [discriminate|]. injection E as <-. rewrite zslice_map. apply all_set_map.
  - destruct D as (_ & Ez & _ & p & -> & Em). rewrite (m_get_ok m p _ Em). cbn [bind]. unfold window in E. destruct (ts_len t <=? 0); [exact E|]. rewrite zlen_map.
    change (0 + ts_start t) with (ts_start t). destruct ((ts_start t <? 0) || (zlen w <? ts_start t + ts_len t)); [discriminate|]. injection E as <-. rewrite zslice_map. apply all_set_map.
  - rewrite D. destruct (ts_len t <=? 0); [exact E|discriminate].
Qed.

(** Freeing through a pointer. *)
Definition one (p : option nat) : Z := match p with Some _ => 1 | None => 0 end.
Lemma free_sim X own m bufs objs h ss p : good X own m bufs objs h ss -> (forall b, p = Some b -> nth_error own b = Some (Some WLeak)) ->
  exists own' m', m_free N m p = Ok m' /\ good X own' m' bufs objs h ss /\ leaks own' = leaks own - one p /\
    (forall b, p <> Some b -> nth_error own' b = nth_error own b /\ nth_error m' b = nth_error m b).
Proof.
  intros G Hp. destruct p as [b|].
  - specialize (Hp b eq_refl). destruct (own_live _ _ _ _ _ _ _ _ G b _ Hp) as (l & El). exists (list_set own b None), (list_set m b None).
    unfold m_free. rewrite (m_get_ok m b l El). cbn [bind]. split; [reflexivity|]. split; [now apply good_free|]. split.
    + rewrite (leaks_set _ _ _ None Hp). cbn. lia.
    + intros c Hc. assert (b <> c) by congruence. rewrite !list_set_nth_error_neq; auto.
  - exists own, m. split; [reflexivity|]. split; auto. split; [cbn; lia|auto].
Qed.

(** The relation between the two worlds; [n] arrays were forgotten. *)
Definition sim (n : Z) (s : mst N) (v : vst N) : Prop :=
  exists own, good [] own (m_mem s) (m_bufs s) (m_objs s) (v_heap v) (v_objs v) /\ leaks own = n.

Lemma sim_obj own m bufs objs h ss i t : good [] own m bufs objs h ss -> nth_error ss i = Some (Some t) ->
  exists o, nth_error objs i = Some (Some o) /\ rep N m bufs o t /\ (forall b w, In (b, w) (claims i o) -> nth_error own b = Some (Some w)) /\ (i < length objs)%nat.
Proof.
  intros G E. pose proof (g_obj _ _ _ _ _ _ _ _ G i ltac:(auto)) as H. rewrite E in H. destruct (nth_error objs i) as [[o|]|] eqn:Eo; try tauto.
  exists o. split; auto. destruct H. split; auto. split; auto. now apply nth_lt in Eo.
Qed.
Lemma series_nth (v : vst N) i t : series N v i = Ok t -> nth_error (v_objs v) i = Some (Some t).
Proof. unfold series. destruct (nth_error (v_objs v) i) as [[?|]|]; congruence. Qed.
Lemma obj_at_ok (s : mst N) i o : nth_error (m_objs s) i = Some (Some o) -> obj_at N s i = Ok o.
Proof. unfold obj_at. now intros ->. Qed.
Lemma series_quiet (v : vst N) i : quiet_ (series N v i).
Proof. intros e. unfold series. destruct (nth_error (v_objs v) i) as [[?|]|]; discriminate. Qed.

(** Writing one element. *)
Lemma write_sim own m bufs objs h ss i o t k x h' t' : good [] own m bufs objs h ss -> nth_error objs i = Some (Some o) -> nth_error ss i = Some (Some t) ->
  ts_write N h t k x = Ok (h', t') ->
  exists own' m', obj_write N m o k x = Ok m' /\ good [] own' m' bufs objs h' (list_set ss i (Some t')) /\ leaks own' = leaks own.
Proof.
  intros G Eo Et E. destruct (sim_obj _ _ _ _ _ _ i t G Et) as (o' & Eo' & R & C & Hl). assert (o' = o) by congruence. subst o'.
  pose proof (good_bufs_ok _ _ _ _ _ _ _ G) as B. destruct R as (F & D & K). unfold ts_write in E. unfold obj_write. unfold data_rep in D. destruct (ts_src t) as [b base|v|] eqn:Es; try discriminate.
  - destruct D as (Ow & p & Ep & Ed). destruct (heap_get N h b) as [l| | |] eqn:Eh; try discriminate. cbn [bind] in E.
    destruct (zset l (base + ts_start t + k) x) as [l'| | |] eqn:Ez; try discriminate. cbn [bind] in E. injection E as <- <-.
    rewrite Ed, (m_get_ok m p _ (buf_of m bufs h b l p B Ep Eh)). cbn [bind]. rewrite (proj1 (proj2 F)), (zset_map Some _ _ _ _ Ez). cbn [bind].
    exists own, (list_set m p (Some (map Some l'))). split; [reflexivity|]. split; auto. rewrite (list_set_same ss) by auto.
    apply (good_bufset N own m bufs objs h ss b p l l'); auto. now apply heap_get_nth.
  - destruct D as (Ow & E0 & Ln & p & Ed & Em). destruct (zset v (ts_start t + k) x) as [v'| | |] eqn:Ez; try discriminate. cbn [bind] in E. injection E as <- <-.
    rewrite Ed, (m_get_ok m p _ Em). cbn [bind]. rewrite (proj1 (proj2 F)). change (0 + ts_start t + k) with (ts_start t + k). rewrite (zset_map Some _ _ _ _ Ez). cbn [bind].
    destruct (good_release N _ _ _ _ _ _ _ G i o t ltac:(auto) Eo Et) as (G1 & L1 & C1 & ND).
    assert (Hp : In (p, WData i) (claims i o)) by (unfold claims; rewrite Ow, Ed; left; reflexivity).
    pose proof (good_write N _ _ _ _ _ _ _ G1 p (map Some v') (C1 p _ Hp)) as G2.
    assert (R2 : rep N (list_set m p (Some (map Some v'))) bufs o (mkTS (Owned v') (ts_index t) (ts_start t) (ts_end t) (ts_len t) (ts_cache t))).
    { split; [exact F|]. split.
      - unfold data_rep. cbn [ts_src]. split; auto. split; auto. split; [apply zset_len in Ez; lia|]. exists p. split; auto. apply list_set_nth_error_eq. now apply nth_lt in Em.
      - unfold cache_rep in *. cbn [ts_cache]. destruct (ts_cache t) as [c|]; auto. destruct K as (K1 & K2 & bl & bu & K3 & K4 & K5 & K6). split; auto. split; auto.
        exists bl, bu. split; auto. split; auto. assert (p <> bl /\ p <> bu) as (N1 & N2).
        { unfold claims in C. rewrite Ow, Ed, K3, K4 in C. cbn [app] in C. pose proof (C p _ (or_introl eq_refl)). pose proof (C bl _ (or_intror (or_introl eq_refl))).
          pose proof (C bu _ (or_intror (or_intror (or_introl eq_refl)))). split; intros ->; congruence. }
        rewrite !list_set_nth_error_neq; auto. }
    destruct (good_finish N _ _ _ _ _ _ _ i o _ G2 ltac:(auto) Hl R2 ND C1) as (G3 & L3).
    eexists _, _. split; [reflexivity|]. split; [rewrite (list_set_same objs) in G3 by auto; exact G3|]. lia.
Qed.

(** Claims by field. *)
Definition dclaim (i : nat) (o : obj) : list (nat * who) :=
  if o_owner o then match o_data o with Some (b, _) => [(b, WData i)] | None => [] end else [].
Definition lclaim (i : nat) (p : option nat) : list (nat * who) := match p with Some b => [(b, WLow i)] | None => [] end.
Definition uclaim (i : nat) (p : option nat) : list (nat * who) := match p with Some b => [(b, WUp i)] | None => [] end.
Lemma claims_split i o : claims i o = dclaim i o ++ lclaim i (o_lower o) ++ uclaim i (o_upper o).
Proof. reflexivity. Qed.
Lemma zlen_claims i o : zlen (claims i o) = zlen (dclaim i o) + one (o_lower o) + one (o_upper o).
Proof. rewrite claims_split, !zlen_app. unfold lclaim, uclaim, one. destruct (o_lower o), (o_upper o); unfold zlen; cbn [length]; lia. Qed.
Lemma in_dclaim i o b w : In (b, w) (dclaim i o) <-> o_owner o = true /\ w = WData i /\ exists k, o_data o = Some (b, k).
Proof.
  unfold dclaim. destruct (o_owner o); [|split; [intros []|intros (Q & _); discriminate]]. destruct (o_data o) as [(p & k)|]; cbn [In].
  - split.
    + intros [E|[]]. injection E as <- <-. split; auto. split; auto. eauto.
    + intros (_ & -> & k' & E). injection E as <- <-. auto.
  - split; [intros []|]. intros (_ & _ & k & E). discriminate.
Qed.
Lemma in_lclaim i p b w : In (b, w) (lclaim i p) <-> p = Some b /\ w = WLow i.
Proof. unfold lclaim. destruct p; cbn [In]; split; try (intros []; congruence). all: intros; intuition congruence. Qed.
Lemma in_uclaim i p b w : In (b, w) (uclaim i p) <-> p = Some b /\ w = WUp i.
Proof. unfold uclaim. destruct p; cbn [In]; split; try (intros []; congruence). all: intros; intuition congruence. Qed.
Lemma in_claims i o b w : In (b, w) (claims i o) <-> In (b, w) (dclaim i o) \/ (o_lower o = Some b /\ w = WLow i) \/ (o_upper o = Some b /\ w = WUp i).
Proof. rewrite claims_split, !in_app_iff, in_lclaim, in_uclaim. tauto. Qed.
Lemma nodup_claims i o : (forall b, In (b, WData i) (dclaim i o) -> o_lower o <> Some b /\ o_upper o <> Some b) -> (forall b, o_lower o = Some b -> o_upper o <> Some b) ->
  NoDup (map fst (claims i o)).
Proof.
  intros H1 H2. rewrite claims_split, !map_app. unfold dclaim in *.
  assert (HU : NoDup (map fst (uclaim i (o_upper o)))) by (unfold uclaim; destruct (o_upper o); cbn; constructor; auto; constructor).
  assert (HL : NoDup (map fst (lclaim i (o_lower o)) ++ map fst (uclaim i (o_upper o)))).
  { unfold lclaim. destruct (o_lower o) as [l|]; auto. cbn [map fst app]. constructor; auto. intros Hin. specialize (H2 l eq_refl).
    unfold uclaim in Hin. destruct (o_upper o); [|destruct Hin]. destruct Hin as [Q|[]]. cbn in Q. congruence. }
  destruct (o_owner o); auto. destruct (o_data o) as [(p & k)|]; auto. cbn [map fst app]. constructor; auto. intros Hin.
  destruct (H1 p (or_introl eq_refl)) as (Q1 & Q2). apply in_app_iff in Hin. unfold lclaim, uclaim in Hin.
  destruct (o_lower o), (o_upper o); cbn [map fst In] in Hin; intuition congruence.
Qed.
(** Distinct claims of one good object. *)
Lemma claims_apart (own : list (option who)) i o : (forall b w, In (b, w) (claims i o) -> nth_error own b = Some (Some w)) ->
  (forall b, In (b, WData i) (dclaim i o) -> o_lower o <> Some b /\ o_upper o <> Some b) /\ (forall b, o_lower o = Some b -> o_upper o <> Some b).
Proof.
  intros C. split.
  - intros b H. pose proof (C b (WData i) ltac:(apply in_claims; auto)) as E1. split; intros E.
    + pose proof (C b (WLow i) ltac:(apply in_claims; auto)). congruence.
    + pose proof (C b (WUp i) ltac:(apply in_claims; auto)). congruence.
  - intros b E E'. pose proof (C b (WLow i) ltac:(apply in_claims; auto)). pose proof (C b (WUp i) ltac:(apply in_claims; auto)). congruence.
Qed.

Local Notation stepped n s v o v' r := (exists s', mstep N false s o = Ok (s', r) /\ sim (n + forgets N v o) s' v').

Lemma sim_buf n s v w : sim n s v -> stepped n s v (MBuf w) (mkV (v_heap v ++ [Some w]) (v_objs v)) RNone.
Proof.
  intros (own & G & L). eexists. split; [reflexivity|]. exists (own ++ [Some (WBuf (length (m_bufs s)))]). split; [now apply good_newbuf|].
  rewrite leaks_app, L. reflexivity.
Qed.
Lemma sim_free n s v b l : sim n s v -> heap_get N (v_heap v) b = Ok l -> stepped n s v (MFree b) (mkV (list_set (v_heap v) b None) (v_objs v)) RNone.
Proof.
  intros (own & G & L) E. apply heap_get_nth in E. pose proof (g_bufs _ _ _ _ _ _ _ _ G) as Lb.
  destruct (nth_error (m_bufs s) b) as [p|] eqn:Ep.
  2: { apply nth_error_None in Ep. apply nth_lt in E. lia. }
  destruct (good_bufgone N _ _ _ _ _ _ b p l G Ep E) as (G' & L' & Em). eexists. split.
  - cbn [mstep]. rewrite Ep. unfold m_free. rewrite (m_get_ok _ _ _ Em). cbn [bind]. reflexivity.
  - eexists. split; [exact G'|]. cbn [forgets]. lia.
Qed.
Lemma sim_add n s v (m : mem N) own o t : good [] own m (m_bufs s) (m_objs s) (v_heap v) (v_objs v) ->
  rep N m (m_bufs s) o t -> NoDup (map fst (claims (length (m_objs s)) o)) ->
  (forall b w, In (b, w) (claims (length (m_objs s)) o) -> nth_error own b = Some (Some WLeak)) ->
  leaks own - zlen (claims (length (m_objs s)) o) = n -> sim n (add_obj N s m o) (add_series N v t).
Proof.
  intros G R ND C L. set (i := length (m_objs s)) in *.
  pose proof (good_slot N _ _ _ _ _ _ _ (Some o) (Some t) G ltac:(cbn; tauto)) as G1.
  destruct (good_finish N _ _ _ _ _ _ _ i o t G1 ltac:(auto) ltac:(rewrite app_length; cbn; unfold i; lia) R ND C) as (G2 & L2).
  exists (set_all own (claims i o)). split; [|lia]. replace (list_set (m_objs s ++ [Some o]) i (Some o)) with (m_objs s ++ [Some o]) in G2 by (symmetry; apply list_set_last).
  replace (list_set (v_objs v ++ [Some t]) i (Some t)) with (v_objs v ++ [Some t]) in G2; [exact G2|].
  unfold i. rewrite (g_objs _ _ _ _ _ _ _ _ G). symmetry. apply list_set_last.
Qed.
Lemma sim_view n s v b base index start end_ x : sim n s v -> nth_error (v_heap v) b = Some x ->
  stepped n s v (MView b base index start end_) (add_series N v (ts_view b base index start end_)) RNone.
Proof.
  intros (own & G & L) E. pose proof (g_bufs _ _ _ _ _ _ _ _ G) as Lb. cbn [mstep]. unfold op_view. destruct (nth_error (m_bufs s) b) as [p|] eqn:Ep.
  2: { apply nth_error_None in Ep. apply nth_lt in E. lia. }
  eexists. split; [reflexivity|]. apply (sim_add _ s v (m_mem s) own).
  - exact G.
  - split; [cbn; auto|]. split; [|reflexivity]. unfold data_rep. cbn. split; auto. exists p. auto.
  - constructor.
  - intros ? ? [].
  - cbn [claims app o_owner o_lower o_upper forgets]. rewrite zlen_nil. lia.
Qed.
Lemma sim_fresh n s v own l index start end_ len t : good [] own (m_mem s) (m_bufs s) (m_objs s) (v_heap v) (v_objs v) -> leaks own = n ->
  ts_src t = Owned l -> ts_index t = index -> ts_start t = start -> ts_end t = end_ -> ts_len t = len -> ts_cache t = None -> start = 0 -> zlen l = len ->
  sim n (add_obj N s (m_mem s ++ [Some (map Some l)]) (mkObj (Some (length (m_mem s), 0)) true index start end_ len false None None 0)) (add_series N v t).
Proof.
  intros G L Es E1 E2 E3 E4 E5 H0 Hl. set (p := length (m_mem s)).
  assert (E : length own = p) by apply (g_len _ _ _ _ _ _ _ _ G).
  apply (sim_add _ s v _ (own ++ [Some WLeak])).
  - now apply good_alloc.
  - split; [cbn; auto|]. split; [|unfold cache_rep; now rewrite E5]. unfold data_rep. rewrite Es. cbn. split; auto. split; auto. split; auto. exists p. split; auto. apply nth_error_last.
  - unfold claims. cbn. repeat constructor. tauto.
  - intros b w [Q|[]]. injection Q as <- _. rewrite <- E. apply nth_error_last.
  - rewrite leaks_app. unfold claims. cbn [o_owner o_data o_lower o_upper app is_leak]. rewrite zlen_cons, zlen_nil. lia.
Qed.
Lemma sim_new n s v len t : sim n s v -> ts_new N len = Ok t -> stepped n s v (MNew len) (add_series N v t) RNone.
Proof.
  intros (own & G & L) E. cbn [mstep]. unfold op_new, ts_new in *. destruct (Z.ltb_spec len 0); [discriminate|]. injection E as <-. eexists. split; [reflexivity|].
  replace (zrepeat (Some (nzero N)) len) with (map Some (zrepeat (nzero N) len)) by apply map_zrepeat.
  eapply sim_fresh; eauto; cbn; auto; [lia|]. now apply zlen_zrepeat.
Qed.
Lemma sim_copy n s v i t : sim n s v -> series N v i = Ok t -> ts_src t <> Null -> stepped n s v (MCopy i) (add_series N v (ts_copy t)) RNone.
Proof.
  intros (own & G & L) E Hn. apply series_nth in E. destruct (sim_obj _ _ _ _ _ _ i t G E) as (o & Eo & (F & D & K) & C & Hl). cbn [mstep]. unfold op_copy.
  rewrite (obj_at_ok _ _ _ Eo). cbn [bind]. destruct F as (F1 & F2 & F3 & F4). unfold data_rep in D. destruct (ts_src t) as [b base|w|] eqn:Es; [| |congruence].
  - destruct D as (-> & p & Ep & Ed). eexists. split; [reflexivity|]. apply (sim_add _ s v (m_mem s) own); auto.
    + split; [cbn; auto|]. split; [|reflexivity]. unfold data_rep, ts_copy. cbn. rewrite Es. split; auto. exists p. auto.
    + constructor.
    + intros ? ? [].
    + cbn [claims app o_owner o_lower o_upper forgets]. rewrite zlen_nil. lia.
  - destruct D as (-> & D0 & Dl & p & Ed & Em). rewrite Ed. unfold copy_cells. rewrite (m_get_ok _ _ _ Em). cbn [bind]. rewrite zlen_map, Dl.
    change (0 <? 0) with false. change (0 + o_len o) with (o_len o). rewrite Z.ltb_irrefl. cbn [orb bind]. rewrite zslice_all by (now rewrite zlen_map).
    eexists. split; [reflexivity|]. eapply sim_fresh; eauto. unfold forgets. lia.
Qed.
Lemma sim_destroy n s v i t : sim n s v -> series N v i = Ok t -> stepped n s v (MDestroy i) (with_series N v (v_heap v) i None) RNone.
Proof.
  intros (own & G & L) E. apply series_nth in E. destruct (sim_obj _ _ _ _ _ _ i t G E) as (o & Eo & R & C & Hl). cbn [mstep]. unfold op_destroy.
  rewrite (obj_at_ok _ _ _ Eo). cbn [bind].
  destruct (good_release N _ _ _ _ _ _ _ G i o t ltac:(auto) Eo E) as (G1 & L1 & C1 & ND). destruct (claims_apart own i o C) as (A1 & A2).
  set (own1 := release_all own (claims i o)) in *. set (dp := if o_owner o then ptr (o_data o) else None).
  replace (if o_owner o then match o_data o with Some (b, _) => m_free N (m_mem s) (Some b) | None => Ok (m_mem s) end else Ok (m_mem s)) with (m_free N (m_mem s) dp)
    by (unfold dp; destruct (o_owner o); [destruct (o_data o) as [(? & ?)|]|]; reflexivity).
  assert (Hdp : forall b, dp = Some b -> In (b, WData i) (dclaim i o)).
  { intros b. unfold dp, dclaim. destruct (o_owner o); [|discriminate]. destruct (o_data o) as [(p & k)|]; [|discriminate]. cbn. intros Q. injection Q as ->. auto. }
  destruct (free_sim _ _ _ _ _ _ _ dp G1) as (own2 & m2 & E2 & G2 & L2 & U2).
  { intros b Q. apply (C1 b (WData i)), in_claims. auto. }
  rewrite E2. cbn [bind]. destruct (free_sim _ _ _ _ _ _ _ (o_lower o) G2) as (own3 & m3 & E3 & G3 & L3 & U3).
  { intros b Q. rewrite (proj1 (U2 b ltac:(intros X; apply Hdp in X; apply A1 in X; tauto))). apply (C1 b (WLow i)), in_claims. auto. }
  rewrite E3. cbn [bind]. destruct (free_sim _ _ _ _ _ _ _ (o_upper o) G3) as (own4 & m4 & E4 & G4 & L4 & U4).
  { intros b Q. rewrite (proj1 (U3 b ltac:(intros X; apply (A2 b X Q)))), (proj1 (U2 b ltac:(intros X; apply Hdp in X; apply A1 in X; tauto))).
    apply (C1 b (WUp i)), in_claims. auto. }
  rewrite E4. cbn [bind]. eexists. split; [reflexivity|]. exists own4. split; [now apply good_gone|].
  rewrite L4, L3, L2, L1, zlen_claims, L. cbn [forgets]. replace (zlen (dclaim i o)) with (one dp); [lia|].
  unfold dp, dclaim. destruct (o_owner o); [destruct (o_data o) as [(? & ?)|]|]; reflexivity.
Qed.
Lemma sim_set n s v i k x t h' t' : sim n s v -> series N v i = Ok t -> ts_set N (v_heap v) t k x = Ok (h', t') ->
  stepped n s v (MSet i k x) (with_series N v h' i (Some t')) RNone.
Proof.
  intros (own & G & L) E Ew. apply series_nth in E. destruct (sim_obj _ _ _ _ _ _ i t G E) as (o & Eo & R & C & Hl). cbn [mstep].
  rewrite (obj_at_ok _ _ _ Eo). cbn [bind]. unfold ts_set in Ew. unfold obj_set. rewrite (proj2 (proj2 (proj2 (proj1 R)))).
  destruct ((k <? 0) || (ts_len t <=? k)); [discriminate|]. destruct (write_sim _ _ _ _ _ _ i o t k x h' t' G Eo E Ew) as (own' & m' & Em & G' & L').
  rewrite Em. cbn [bind]. eexists. split; [reflexivity|]. exists own'. split; [exact G'|]. cbn [forgets]. lia.
Qed.
Lemma throw_set n s v i k x t e : sim n s v -> series N v i = Ok t -> ts_set N (v_heap v) t k x = Throw e -> mstep N false s (MSet i k x) = Throw e.
Proof.
  intros (own & G & L) E Ew. apply series_nth in E. destruct (sim_obj _ _ _ _ _ _ i t G E) as (o & Eo & R & C & Hl). cbn [mstep].
  rewrite (obj_at_ok _ _ _ Eo). cbn [bind]. unfold ts_set in Ew. unfold obj_set. rewrite (proj2 (proj2 (proj2 (proj1 R)))).
  destruct ((k <? 0) || (ts_len t <=? k)); [injection Ew as <-; reflexivity|]. exfalso. unfold ts_write in Ew. destruct (ts_src t) as [b base|w|]; try discriminate.
  - unfold heap_get in Ew. destruct (nth_error (v_heap v) b) as [[l|]|]; try discriminate. cbn [bind] in Ew. pose proof (quiet_zset l (base + ts_start t + k) x) as Q.
    destruct (zset l (base + ts_start t + k) x); try discriminate. now apply (Q e0).
  - pose proof (quiet_zset w (ts_start t + k) x) as Q. destruct (zset w (ts_start t + k) x); try discriminate. now apply (Q e0).
Qed.
Lemma sim_get n s v i k t : sim n s v -> series N v i = Ok t ->
  match ts_get N (v_heap v) t k with Ok x => stepped n s v (MGet i k) v (RVal x) | Throw e => mstep N false s (MGet i k) = Throw e | _ => True end.
Proof.
  intros (own & G & L) E. apply series_nth in E. destruct (sim_obj _ _ _ _ _ _ i t G E) as (o & Eo & R & C & Hl). cbn [mstep].
  rewrite (obj_at_ok _ _ _ Eo). cbn [bind]. pose proof (get_sim _ _ _ o t k (good_bufs_ok _ _ _ _ _ _ _ G) R) as H.
  destruct (ts_get N (v_heap v) t k); auto; rewrite H; cbn [bind]; auto. eexists. split; [reflexivity|]. exists own. split; auto. cbn [forgets]. lia.
Qed.

Lemma cache_frame (m m' : mem N) o t o' t' : cache_rep N m o t -> ts_cache t' = ts_cache t -> o_valid o' = o_valid o -> o_band o' = o_band o ->
  o_lower o' = o_lower o -> o_upper o' = o_upper o -> (forall b, o_lower o = Some b -> nth_error m' b = nth_error m b) ->
  (forall b, o_upper o = Some b -> nth_error m' b = nth_error m b) -> cache_rep N m' o' t'.
Proof.
  unfold cache_rep. intros K -> -> -> -> -> Hl Hu. destruct (ts_cache t) as [c|]; auto. destruct K as (K1 & K2 & l & u & K3 & K4 & K5 & K6).
  split; auto. split; auto. exists l, u. rewrite (Hl l K3), (Hu u K4). auto.
Qed.
Lemma sim_assign n s v i j d t : sim n s v -> series N v i = Ok d -> series N v j = Ok t -> ts_src t <> Null -> (i = j -> forall w, ts_src d <> Owned w) ->
  stepped n s v (MAssign i j) (with_series N v (v_heap v) i (Some (ts_assign d t))) RNone.
Proof.
  intros (own & G & L) Ei Ej Hn Hs. apply series_nth in Ei. apply series_nth in Ej.
  destruct (sim_obj _ _ _ _ _ _ i d G Ei) as (a & Ea & (F & D & K) & C & Hl). destruct (sim_obj _ _ _ _ _ _ j t G Ej) as (o & Eo & (F' & D' & K') & C' & Hl').
  cbn [mstep]. unfold op_assign. rewrite (obj_at_ok _ _ _ Ea), (obj_at_ok _ _ _ Eo). cbn [bind].
  destruct (good_release N _ _ _ _ _ _ _ G i a d ltac:(auto) Ea Ei) as (G1 & L1 & C1 & ND). destruct (claims_apart own i a C) as (A1 & A2).
  set (own1 := release_all own (claims i a)) in *. set (dp := if o_owner a then ptr (o_data a) else None).
  replace (if o_owner a then m_free N (m_mem s) (ptr (o_data a)) else Ok (m_mem s)) with (m_free N (m_mem s) dp) by (unfold dp; destruct (o_owner a); reflexivity).
  assert (Hdp : forall b, dp = Some b -> In (b, WData i) (dclaim i a)).
  { intros b. unfold dp, dclaim. destruct (o_owner a); [|discriminate]. destruct (o_data a) as [(p & k)|]; [|discriminate]. cbn. intros Q. injection Q as ->. auto. }
  assert (Hone : zlen (dclaim i a) = one dp) by (unfold dp, dclaim; destruct (o_owner a); [destruct (o_data a) as [(? & ?)|]|]; reflexivity).
  destruct (free_sim _ _ _ _ _ _ _ dp G1) as (own2 & m2 & E2 & G2 & L2 & U2).
  { intros b Q. apply (C1 b (WData i)), in_claims. auto. }
  rewrite E2. cbn [bind]. destruct F as (F1 & F2 & F3 & F4). destruct F' as (F1' & F2' & F3' & F4').
  assert (Ul : forall b, o_lower a = Some b -> nth_error own2 b = Some (Some WLeak) /\ nth_error m2 b = nth_error (m_mem s) b).
  { intros b Q. destruct (U2 b) as (-> & ->); [intros Z; apply Hdp, A1 in Z; tauto|]. split; auto. apply (C1 b (WLow i)), in_claims. auto. }
  assert (Uu : forall b, o_upper a = Some b -> nth_error own2 b = Some (Some WLeak) /\ nth_error m2 b = nth_error (m_mem s) b).
  { intros b Q. destruct (U2 b) as (-> & ->); [intros Z; apply Hdp, A1 in Z; tauto|]. split; auto. apply (C1 b (WUp i)), in_claims. auto. }
  unfold data_rep in D'. destruct (ts_src t) as [b base|w|] eqn:Es; [| |congruence].
  - destruct D' as (-> & p & Ep & Ed). eexists. split; [reflexivity|].
    set (o' := mkObj (o_data o) false (o_index o) (o_start o) (o_end o) (o_len o) (o_valid a) (o_lower a) (o_upper a) (o_band a)).
    destruct (good_finish N _ _ _ _ _ _ _ i o' (ts_assign d t) G2 ltac:(auto) Hl) as (G3 & L3).
    + split; [cbn; auto|]. split.
      * unfold data_rep. cbn. rewrite Es. split; auto. exists p. auto.
      * apply (cache_frame (m_mem s) m2 a d); auto; intros q Q; [now apply Ul|now apply Uu].
    + apply nodup_claims; [intros ? []|exact A2].
    + intros q w Hin. apply in_claims in Hin as [[]|[(Q & _)|(Q & _)]]; [now apply Ul|now apply Uu].
    + eexists. split; [exact G3|]. rewrite L3, L2, L1, !zlen_claims, Hone. cbn [dclaim o_owner o' o_lower o_upper forgets]. rewrite zlen_nil. lia.
  - destruct D' as (Ow & D0 & Dl & p & Ed & Em). assert (Hij : i <> j).
    { intros ->. assert (d = t) by congruence. subst d. now apply (Hs eq_refl w). }
    rewrite Ow, (proj2 (Nat.eqb_neq i j) Hij), Ed.
    assert (Hp : dp <> Some p).
    { intros Q. apply Hdp in Q. pose proof (C p (WData i) ltac:(apply in_claims; auto)) as Q1.
      pose proof (C' p (WData j) ltac:(apply in_claims; left; apply in_dclaim; eauto)) as Q2. rewrite Q1 in Q2. injection Q2 as Q2. congruence. }
    unfold copy_cells. rewrite (m_get_ok m2 p (map Some w)) by (rewrite (proj2 (U2 p Hp)); auto). cbn [bind]. rewrite zlen_map, Dl.
    change (0 <? 0) with false. change (0 + o_len o) with (o_len o). rewrite Z.ltb_irrefl. cbn [orb bind]. rewrite zslice_all by (now rewrite zlen_map).
    eexists. split; [reflexivity|]. set (q := length m2). pose proof (good_alloc N _ _ _ _ _ _ _ G2 (map Some w)) as G3.
    assert (Eq : length own2 = q) by apply (g_len _ _ _ _ _ _ _ _ G2).
    assert (Kq : forall b x, nth_error own2 b = Some x -> b <> q /\ nth_error (own2 ++ [Some WLeak]) b = Some x /\ nth_error (m2 ++ [Some (map Some w)]) b = nth_error m2 b).
    { intros b x Q. apply nth_lt in Q as Q'. split; [lia|]. rewrite !nth_error_app1; auto. fold q. lia. }
    set (o' := mkObj (Some (q, 0)) true (o_index o) (o_start o) (o_end o) (o_len o) (o_valid a) (o_lower a) (o_upper a) (o_band a)).
    assert (Hdc : forall x w0, In (x, w0) (dclaim i o') -> x = q).
    { intros x w0 Hin. apply in_dclaim in Hin as (_ & _ & k & Q). cbn in Q. congruence. }
    destruct (good_finish N _ _ _ _ _ _ _ i o' (ts_assign d t) G3 ltac:(auto) Hl) as (G4 & L4).
    + split; [cbn; auto|]. split.
      * unfold data_rep. cbn. rewrite Es. split; auto. split; auto. split; auto. exists q. split; auto. apply nth_error_last.
      * apply (cache_frame (m_mem s) _ a d); auto; intros x Q.
        -- destruct (Ul x Q) as (Q1 & Q2). destruct (Kq _ _ Q1) as (_ & _ & Q3). exact (eq_trans Q3 Q2).
        -- destruct (Uu x Q) as (Q1 & Q2). destruct (Kq _ _ Q1) as (_ & _ & Q3). exact (eq_trans Q3 Q2).
    + apply nodup_claims; [|exact A2]. intros x Hin. apply Hdc in Hin. subst x. cbn [o_lower o_upper o'].
      split; intros Q; [destruct (Ul _ Q) as (Q1 & _)|destruct (Uu _ Q) as (Q1 & _)]; destruct (Kq _ _ Q1); congruence.
    + intros x w0 Hin. apply in_claims in Hin as [Hin|[(Q & _)|(Q & _)]].
      * apply Hdc in Hin. subst x. rewrite <- Eq. apply nth_error_last.
      * destruct (Ul _ Q) as (Q1 & _). destruct (Kq _ _ Q1) as (_ & Q3 & _). exact Q3.
      * destruct (Uu _ Q) as (Q1 & _). destruct (Kq _ _ Q1) as (_ & Q3 & _). exact Q3.
    + eexists. split; [exact G4|]. rewrite L4, leaks_app, L2, L1, !zlen_claims, Hone. cbn [dclaim o_owner o_data o' o_lower o_upper forgets is_leak]. rewrite zlen_cons, zlen_nil. lia.
Qed.
Lemma sim_move n s v i j d t : sim n s v -> series N v i = Ok d -> series N v j = Ok t ->
  let v1 := with_series N v (v_heap v) i (Some (ts_assign d t)) in forall t', series N v1 j = Ok t' ->
  stepped n s v (MMove i j) (with_series N v1 (v_heap v1) j (Some (emptied N t'))) RNone.
Proof.
  intros (own & G & L) Ei0 Ej v1 t' Et'. apply series_nth in Ei0 as Ei. apply series_nth in Ej. apply series_nth in Et'.
  destruct (sim_obj _ _ _ _ _ _ i d G Ei) as (a & Ea & (F & D & K) & C & Hl). destruct (sim_obj _ _ _ _ _ _ j t G Ej) as (o & Eo & (F' & D' & K') & C' & Hl').
  cbn [mstep]. unfold op_move. rewrite (obj_at_ok _ _ _ Ea), (obj_at_ok _ _ _ Eo). cbn [bind]. pose proof (g_objs _ _ _ _ _ _ _ _ G) as Lo.
  assert (Fg : forgets N v (MMove i j) = zlen (dclaim i a)).
  { unfold forgets. rewrite Ei0. unfold data_rep in D. unfold dclaim. destruct (ts_src d).
    - destruct D as (-> & _). reflexivity.
    - destruct D as (-> & _ & _ & p & -> & _). reflexivity.
    - rewrite D. destruct (o_owner a); reflexivity. }
  destruct (claims_apart own i a C) as (A1 & A2). unfold v1, with_series in Et'. cbn [v_objs] in Et'. destruct (Nat.eq_dec i j) as [<-|Hij].
  - assert (o = a) by congruence. assert (d = t) by congruence. subst o d. rewrite list_set_nth_error_eq in Et' by lia. injection Et' as <-.
    unfold obj_at, set_obj. cbn [m_objs]. rewrite list_set_nth_error_eq by lia. cbn [bind m_mem m_bufs]. eexists. split; [reflexivity|]. unfold sim, v1, with_series. cbn [m_mem m_bufs m_objs v_heap v_objs].
    rewrite !list_set_twice. destruct (good_release N _ _ _ _ _ _ _ G i a t ltac:(auto) Ea Ei) as (G1 & L1 & C1 & ND).
    match goal with |- exists own, good [] own _ _ (list_set _ _ (Some ?x)) _ _ /\ _ => set (o' := x) end.
    destruct (good_finish N _ _ _ _ _ _ _ i o' (emptied N (ts_assign t t)) G1 ltac:(auto) Hl) as (G2 & L2).
    + split; [cbn; auto|]. split; [reflexivity|]. apply (cache_frame (m_mem s) _ a t); auto.
    + apply nodup_claims; [|exact A2]. intros b Hin. apply in_dclaim in Hin as (_ & _ & k & Q). discriminate.
    + intros b w Hin. apply in_claims in Hin as [Hin|[(Q & _)|(Q & _)]].
      * apply in_dclaim in Hin as (_ & _ & k & Q). discriminate.
      * apply (C1 b (WLow i)), in_claims. auto.
      * apply (C1 b (WUp i)), in_claims. auto.
    + eexists. split; [exact G2|]. rewrite L2, L1, !zlen_claims, Fg. cbn [o_lower o_upper o' without_data]. replace (zlen (dclaim i o')) with 0; [lia|].
      unfold dclaim, o'. cbn. destruct (o_owner a); reflexivity.
  - rewrite list_set_nth_error_neq in Et' by auto. assert (t' = t) by congruence. subst t'.
    unfold obj_at, set_obj. cbn [m_objs]. rewrite list_set_nth_error_neq, Eo by auto. cbn [bind m_mem m_bufs]. eexists. split; [reflexivity|]. unfold sim, v1, with_series. cbn [m_mem m_bufs m_objs v_heap v_objs].
    destruct (good_release N _ _ _ _ _ _ _ G j o t ltac:(auto) Eo Ej) as (G1 & L1 & C1 & ND1).
    set (own1 := release_all own (claims j o)) in *.
    destruct (good_release N _ _ _ _ _ _ _ G1 i a d ltac:(cbn; intuition) Ea Ei) as (G2 & L2 & C2 & ND2).
    set (own2 := release_all own1 (claims i a)) in *.
    assert (Dj : forall b w, In (b, w) (claims j o) -> nth_error own2 b = Some (Some WLeak)).
    { intros b w Hin. unfold own2. rewrite release_all_out; [now apply (C1 b w)|]. intros Q. apply in_map_iff in Q as ((b' & w') & Q & Hin'). cbn in Q. subst b'.
      apply C' in Hin as Q1. apply C in Hin' as Q2. apply claims_tag in Hin, Hin'. rewrite Q1 in Q2. injection Q2 as ->. destruct Hin as [Q|[Q|Q]]; destruct Hin' as [Q'|[Q'|Q']]; congruence. }
    set (a' := mkObj (o_data o) (o_owner o) (o_index o) (o_start o) (o_end o) (o_len o) (o_valid a) (o_lower a) (o_upper a) (o_band a)).
    assert (Hda : forall b w, In (b, w) (dclaim i a') -> In (b, WData j) (dclaim j o)).
    { intros b w Hin. apply in_dclaim in Hin as (Q1 & Q2 & k & Q3). apply in_dclaim. split; auto. split; auto. exists k. exact Q3. }
    destruct (good_finish N _ _ _ _ _ _ _ i a' (ts_assign d t) G2 ltac:(cbn; intuition) Hl) as (G3 & L3).
    + split; [cbn; auto; destruct F' as (? & ? & ? & ?); auto|]. split; [exact D'|]. apply (cache_frame (m_mem s) _ a d); auto.
    + apply nodup_claims; [|exact A2]. intros b Hin. apply Hda in Hin. pose proof (C' b (WData j) ltac:(apply in_claims; auto)) as Q1.
      split; intros Q.
      * pose proof (C b (WLow i) ltac:(apply in_claims; auto)). congruence.
      * pose proof (C b (WUp i) ltac:(apply in_claims; auto)). congruence.
    + intros b w Hin. apply in_claims in Hin as [Hin|[(Q & _)|(Q & _)]].
      * apply Hda in Hin. apply (Dj b (WData j)), in_claims. auto.
      * apply (C2 b (WLow i)), in_claims. auto.
      * apply (C2 b (WUp i)), in_claims. auto.
    + set (own3 := set_all own2 (claims i a')) in *. destruct (claims_apart own j o C') as (B1 & B2).
      assert (Ld : forall b w, (o_lower o = Some b /\ w = WLow j) \/ (o_upper o = Some b /\ w = WUp j) -> nth_error own3 b = Some (Some WLeak)).
      { intros b w Q. assert (Hin : In (b, w) (claims j o)) by (apply in_claims; auto). unfold own3. rewrite set_all_out; [now apply (Dj b w)|].
        intros Hq. apply in_map_iff in Hq as ((b' & w') & Hq & Hin'). cbn in Hq. subst b'. apply C' in Hin as Q1. apply in_claims in Hin' as [Hin'|[(Q2 & _)|(Q2 & _)]].
        - apply Hda in Hin'. destruct (B1 b Hin'). destruct Q as [(Q & _)|(Q & _)]; congruence.
        - pose proof (C b (WLow i) ltac:(apply in_claims; auto)). destruct Q as [(_ & ->)|(_ & ->)]; congruence.
        - pose proof (C b (WUp i) ltac:(apply in_claims; auto)). destruct Q as [(_ & ->)|(_ & ->)]; congruence. }
      destruct (good_finish N _ _ _ _ _ _ _ j (without_data o) (emptied N t) G3 ltac:(auto) ltac:(rewrite list_set_length; auto)) as (G4 & L4).
      * split; [cbn; auto|]. split; [reflexivity|]. apply (cache_frame (m_mem s) _ o t); auto.
      * apply nodup_claims; [|exact B2]. intros b Hin. apply in_dclaim in Hin as (_ & _ & k & Q). discriminate.
      * intros b w Hin. apply in_claims in Hin as [Hin|Hin].
        -- apply in_dclaim in Hin as (_ & _ & k & Q). discriminate.
        -- apply (Ld b w). exact Hin.
      * eexists. split; [exact G4|]. rewrite L4, L3, L2, L1, !zlen_claims, Fg. cbn [o_lower o_upper a' without_data].
        replace (zlen (dclaim j (without_data o))) with 0 by (unfold dclaim, without_data; cbn; destruct (o_owner o); reflexivity).
        replace (zlen (dclaim i a')) with (zlen (dclaim j o)); [lia|]. unfold dclaim, a'. cbn. destruct (o_owner o); [destruct (o_data o) as [(? & ?)|]|]; reflexivity.
Qed.

Lemma ts_write_len h t k x h' t' : ts_write N h t k x = Ok (h', t') -> ts_len t' = ts_len t /\ ts_index t' = ts_index t /\ ts_start t' = ts_start t /\ ts_end t' = ts_end t /\ ts_cache t' = ts_cache t.
Proof.
  unfold ts_write. destruct (ts_src t); try discriminate.
  - destruct (heap_get N h buf); try discriminate. cbn [bind]. destruct (zset _ _ _); try discriminate. cbn [bind]. intros E. injection E as _ <-. auto.
  - destruct (zset _ _ _); try discriminate. cbn [bind]. intros E. injection E as _ <-. auto 6.
Qed.
(** Writing does not change what the old value of the same series shows further on. *)
Lemma ts_write_later h t k x h' t' u : ts_write N h t k x = Ok (h', t') -> ts_len u = ts_len t -> ts_start u = ts_start t ->
  (forall b base, ts_src t = View b base -> ts_src u = ts_src t) -> (forall w, ts_src t = Owned w -> exists w', ts_src u = Owned w') ->
  forall l, k < l -> ts_get N h u l = ts_get N h t l -> ts_get N h' u l = ts_get N h' t' l.
Proof.
  intros E El Es Hv Ho l Hl Eg. unfold ts_write in E. destruct (ts_src t) as [b base|w|] eqn:Et; try discriminate.
  - destruct (heap_get N h b) as [c| | |]; try discriminate. cbn [bind] in E. destruct (zset c _ x) as [c'| | |]; try discriminate. cbn [bind] in E. injection E as <- <-.
    unfold ts_get. rewrite El, Es, (Hv b base eq_refl), Et. reflexivity.
  - destruct (zset w _ x) as [w'| | |] eqn:Ez; try discriminate. cbn [bind] in E. injection E as <- <-. destruct (Ho w eq_refl) as (w0 & Ew0).
    unfold ts_get in *. rewrite El, Es, Et, Ew0 in *. cbn [ts_len ts_start ts_src]. destruct ((l <? 0) || (ts_len t <=? l)); auto. rewrite Eg.
    symmetry. eapply zget_zset_neq; eauto. lia.
Qed.
Lemma sim_plus n s v i j t u : sim n s v -> series N v i = Ok t -> series N v j = Ok u ->
  match ts_plus_assign N (v_heap v) t u with
  | Ok (h', t') => stepped n s v (MAdd i j) (with_series N v h' i (Some t')) RNone
  | Throw e => mstep N false s (MAdd i j) = Throw e
  | _ => True
  end.
Proof.
  intros (own & G & L) Ei Ej. apply series_nth in Ei. apply series_nth in Ej.
  destruct (sim_obj _ _ _ _ _ _ i t G Ei) as (a & Ea & R & C & Hl). destruct (sim_obj _ _ _ _ _ _ j u G Ej) as (o & Eo & R' & C' & Hl').
  cbn [mstep]. unfold op_add, ts_plus_assign. rewrite (obj_at_ok _ _ _ Ea), (obj_at_ok _ _ _ Eo). cbn [bind].
  rewrite (proj2 (proj2 (proj2 (proj1 R)))), (proj2 (proj2 (proj2 (proj1 R')))). pose proof (g_objs _ _ _ _ _ _ _ _ G) as Lo.
  destruct (Z.eqb_spec (ts_len u) (ts_len t)) as [Elen|]; cbn [negb]; [|reflexivity].
  destruct (Z.lt_ge_cases (ts_len t) 0) as [Hneg|Hpos].
  { unfold for_. replace (Z.to_nat (ts_len t - 0)) with 0%nat by lia. cbn [loop bind]. eexists. split; [reflexivity|].
    destruct (good_release N _ _ _ _ _ _ _ G i a t ltac:(auto) Ea Ei) as (G1 & L1 & C1 & ND).
    match goal with |- sim _ (set_obj _ _ _ _ (Some ?x)) _ => set (a' := x) end.
    destruct (good_finish N _ _ _ _ _ _ _ i a' (ts_invalidate t) G1 ltac:(auto) Hl) as (G2 & L2); auto.
    - destruct R as ((F1 & F2 & F3 & F4) & D & K). split; [cbn; auto|]. split; [unfold data_rep in *; cbn [o_len a']; rewrite <- F4; exact D|reflexivity].
    - eexists. split; [exact G2|]. change (claims i a') with (claims i a) in *. cbn [forgets]. lia. }
  set (J := fun (k : Z) (ht : heap N * ts N) (m : mem N) => exists own', good [] own' m (m_bufs s) (m_objs s) (fst ht) (list_set (v_objs v) i (Some (snd ht))) /\ leaks own' = n /\
     ts_len (snd ht) = ts_len t /\ ts_start (snd ht) = ts_start t /\ (forall b base, ts_src (snd ht) = View b base -> ts_src t = ts_src (snd ht)) /\ (forall w, ts_src (snd ht) = Owned w -> exists w', ts_src t = Owned w') /\
     (i = j -> forall l, k <= l -> ts_get N (fst ht) t l = ts_get N (fst ht) (snd ht) l)).
  match goal with |- match (x <- for_ 0 ?hi ?f ?st ;; _) with _ => _ end => pose proof (for_sim J 0 hi f (fun k m => y <- obj_get N m o k ;; x <- obj_read N m a k ;; obj_write N m a k (nadd N x y)) st (m_mem s)) as FS end.
  cbn beta in FS. match type of FS with ?A -> ?B -> ?D -> ?E => assert (FS' : E) end.
  { apply FS; [lia| |].
    - exists own. cbn [fst snd]. rewrite list_set_same by auto. split; [exact G|]. split; [exact L|]. split; [reflexivity|]. split; [reflexivity|].
      split; [reflexivity|]. split; [eauto|reflexivity].
    - intros k (h1 & t1) m Hk (own1 & G1 & L1 & E1 & E2 & E3 & E4 & E5). cbn [fst snd] in *.
      assert (Et1 : nth_error (list_set (v_objs v) i (Some t1)) i = Some (Some t1)) by (apply list_set_nth_error_eq; lia).
      destruct (sim_obj _ _ _ _ _ _ i t1 G1 Et1) as (a1 & Ea1 & R1 & C1 & _). assert (a1 = a) by congruence. subst a1.
      pose proof (good_bufs_ok _ _ _ _ _ _ _ G1) as B.
      assert (Ho : match ts_get N h1 u k with Ok x => obj_get N m o k = Ok x | Throw e => obj_get N m o k = Throw e | _ => True end).
      { destruct (Nat.eq_dec i j) as [<-|Hn].
        - assert (u = t) by congruence. assert (o = a) by congruence. subst u o. rewrite (E5 eq_refl k ltac:(lia)). apply (get_sim m (m_bufs s) h1 a t1 k B R1).
        - destruct (sim_obj _ _ _ _ _ _ j u G1 ltac:(rewrite list_set_nth_error_neq; auto)) as (o1 & Eo1 & Ro & _). assert (o1 = o) by congruence. subst o1.
          apply (get_sim m (m_bufs s) h1 o u k B Ro). }
      assert (Hr : ts_get N h1 u k <> Throw (OnexExn range_error)).
      { unfold ts_get. destruct (Z.ltb_spec k 0); [lia|]. destruct (Z.leb_spec (ts_len u) k); [lia|]. cbn [orb]. destruct (ts_src u) as [b base|w|]; try discriminate.
        - unfold heap_get. destruct (nth_error h1 b) as [[c|]|]; try discriminate. cbn [bind]. apply quiet_zget.
        - apply quiet_zget. }
      destruct (ts_get N h1 u k) as [y|e| |] eqn:Ey; cbn [bind]; auto.
      2: { unfold ts_get in Ey. destruct ((k <? 0) || (ts_len u <=? k)); [injection Ey as <-; now apply Hr|]. destruct (ts_src u) as [b base|w|]; try discriminate.
           - unfold heap_get in Ey. destruct (nth_error h1 b) as [[c|]|]; try discriminate. cbn [bind] in Ey. now apply (quiet_zget c (base + ts_start u + k) e).
           - now apply (quiet_zget w (ts_start u + k) e). }
      rewrite Ho. cbn [bind]. pose proof (get_sim m (m_bufs s) h1 a t1 k B R1) as Ha.
      unfold obj_get in Ha. rewrite (proj2 (proj2 (proj2 (proj1 R1)))) in Ha. unfold ts_get in Ha |- *.
      destruct (Z.ltb_spec k 0); [lia|]. destruct (Z.leb_spec (ts_len t1) k); [lia|]. cbn [orb] in *.
      match goal with |- match bind ?g _ with _ => _ end => assert (Hq : quiet_ g); [|destruct g as [x|e| |] eqn:Ex] end; cbn [bind]; auto.
      { destruct (ts_src t1) as [b base|w|]; [|apply quiet_zget|intros ?; discriminate]. apply quiet_bind; [|intros; apply quiet_zget].
        intros e. unfold heap_get. destruct (nth_error h1 b) as [[c|]|]; discriminate. }
      2: now apply (Hq e).
      rewrite Ha. cbn [bind]. destruct (ts_write N h1 t1 k (nadd N x y)) as [(h2 & t2)|e| |] eqn:Ew; auto.
      2: { unfold ts_write in Ew. destruct (ts_src t1) as [b base|w|]; try discriminate.
           - unfold heap_get in Ew. destruct (nth_error h1 b) as [[c|]|]; try discriminate. cbn [bind] in Ew.
             destruct (zset c (base + ts_start t1 + k) (nadd N x y)) eqn:Ez; try discriminate. now apply (quiet_zset c (base + ts_start t1 + k) (nadd N x y) e0).
           - destruct (zset w (ts_start t1 + k) (nadd N x y)) eqn:Ez; try discriminate. now apply (quiet_zset w (ts_start t1 + k) (nadd N x y) e0). }
      destruct (write_sim _ _ _ _ _ _ i a t1 k (nadd N x y) h2 t2 G1 Ea Et1 Ew) as (own2 & m2 & Em2 & G2 & L2). exists m2. split; [exact Em2|].
      exists own2. cbn [fst snd]. rewrite list_set_twice in G2. split; [exact G2|]. split; [lia|]. destruct (ts_write_len _ _ _ _ _ _ Ew) as (W1 & _ & W3 & _).
      split; [lia|]. split; [lia|].
      assert (W : (forall b base, ts_src t2 = View b base -> ts_src t = ts_src t2) /\ (forall w, ts_src t2 = Owned w -> exists w', ts_src t = Owned w')).
      { unfold ts_write in Ew. destruct (ts_src t1) as [b base|w|] eqn:Es1; try discriminate.
        - destruct (heap_get N h1 b); try discriminate. cbn [bind] in Ew. destruct (zset _ _ _); try discriminate. cbn [bind] in Ew. injection Ew as _ <-.
          split; intros; rewrite Es1 in *; eauto.
        - destruct (zset _ _ _); try discriminate. cbn [bind] in Ew. injection Ew as _ <-. cbn [ts_src]. split; [intros; discriminate|eauto]. }
      split; [apply W|]. split; [apply W|].
      intros Hij l Hlk.
      eapply ts_write_later; [exact Ew|lia|lia| | |lia|apply (E5 Hij); lia].
      + intros b base Q. now apply (E3 b base).
      + exact E4. }
  match goal with |- match (_ <- ?g ;; _) with _ => _ end => destruct g as [(h' & t')|e| |]; cbn [bind]; auto; [|destruct FS'] end.
  destruct FS' as (m' & Em' & own' & G' & L' & E1 & E2 & _ & _ & _). cbn [fst snd] in *. rewrite Em'. cbn [bind]. eexists. split; [reflexivity|].
  assert (Et' : nth_error (list_set (v_objs v) i (Some t')) i = Some (Some t')) by (apply list_set_nth_error_eq; lia).
  destruct (sim_obj _ _ _ _ _ _ i t' G' Et') as (a1 & Ea1 & R1 & C1 & _). assert (a1 = a) by congruence. subst a1.
  destruct (good_release N _ _ _ _ _ _ _ G' i a t' ltac:(auto) Ea Et') as (G1 & L1 & C2 & ND).
  match goal with |- sim _ (set_obj _ _ _ _ (Some ?x)) _ => set (a' := x) end.
  destruct (good_finish N _ _ _ _ _ _ _ i a' (ts_invalidate t') G1 ltac:(auto) Hl) as (G2 & L2); auto.
  - destruct R1 as ((F1 & F2 & F3 & F4) & D & K). split; [cbn; split; auto; split; auto; split; auto; lia|].
    split; [unfold data_rep in *; cbn [o_len a']; replace (ts_len t) with (o_len a) by lia; exact D|reflexivity].
  - rewrite list_set_twice in G2. eexists. split; [exact G2|]. change (claims i a') with (claims i a) in *. cbn [forgets]. lia.
Qed.

Lemma sim_env n s v i band t : sim n s v -> series N v i = Ok t -> 0 <= ts_len t ->
  match ts_envelope N (v_heap v) t band with
  | Ok (t', (l, u)) => stepped n s v (MEnv i band) (with_series N v (v_heap v) i (Some t')) (REnv l u)
  | Throw e => False
  | _ => True
  end.
Proof.
  intros (own & G & L) Ei Hlen. apply series_nth in Ei. destruct (sim_obj _ _ _ _ _ _ i t G Ei) as (o & Eo & (F & D & K) & C & Hl).
  cbn [mstep]. unfold op_env. rewrite (obj_at_ok _ _ _ Eo). cbn [bind].
  destruct (claims_apart own i o C) as (A1 & A2). destruct F as (F1 & F2 & F3 & F4).
  assert (Re : match (w <- ts_read N (v_heap v) t ;; '(l, u) <- generateKeoghLU N w band ;;
        Ok (mkTS (ts_src t) (ts_index t) (ts_start t) (ts_end t) (ts_len t) (Some (mkCache band l u)), (l, u))) with
    | Ok (t', (l, u)) => exists s', (if o_len o <? 0 then Throw (OtherExn "std::bad_array_new_length") else
         m <- m_free N (m_mem s) (o_lower o) ;;
         m <- m_free N m (o_upper o) ;;
         let bl := length m in
         let m := m ++ [Some (zrepeat None (o_len o))] in
         let bu := length m in
         let m := m ++ [Some (zrepeat None (o_len o))] in
         v <- obj_values N m o ;;
         '(l, u) <- generateKeoghLU N v band ;;
         let m := m_put N (m_put N m bl l) bu u in
         Ok (set_obj N s m i (Some (mkObj (o_data o) (o_owner o) (o_index o) (o_start o) (o_end o) (o_len o) true (Some bl) (Some bu) band)), REnv l u)) = Ok (s', REnv l u) /\
         sim (n + forgets N v (MEnv i band)) s' (with_series N v (v_heap v) i (Some t'))
    | Throw e => False
    | _ => True
    end).
  { destruct (Z.ltb_spec (o_len o) 0); [lia|].
    destruct (ts_read N (v_heap v) t) as [w|e| |] eqn:Er; cbn [bind]; auto.
    2: { exfalso. assert (Q : quiet_ (ts_read N (v_heap v) t)).
         { unfold ts_read. assert (Qw : forall l a b, quiet_ (window N l a b)) by (intros; unfold window; quiet_tac). destruct (ts_src t) as [b base|w|]; auto.
           - apply quiet_bind; auto. intros e'. unfold heap_get. destruct (nth_error (v_heap v) b) as [[?|]|]; discriminate.
           - quiet_tac. }
         now apply (Q e). }
    destruct (generateKeoghLU N w band) as [(l & u)|e| |] eqn:Eg; cbn [bind]; auto.
    2: { exfalso. now apply (quiet_lemire N w (Z.min band (zlen w - 1)) e). }
    destruct (good_release N _ _ _ _ _ _ _ G i o t ltac:(auto) Eo Ei) as (G1 & L1 & C1 & ND). set (own1 := release_all own (claims i o)) in *.
    destruct (free_sim _ _ _ _ _ _ _ (o_lower o) G1) as (own2 & m2 & E2 & G2 & L2 & U2).
    { intros b Q. apply (C1 b (WLow i)), in_claims. auto. }
    destruct (free_sim _ _ _ _ _ _ _ (o_upper o) G2) as (own3 & m3 & E3 & G3 & L3 & U3).
    { intros b Q. rewrite (proj1 (U2 b ltac:(intros X; apply (A2 b X Q)))). apply (C1 b (WUp i)), in_claims. auto. }
    rewrite E2. cbn [bind]. rewrite E3. cbn [bind]. cbv zeta. set (bl := length m3). set (z := zrepeat None (o_len o)).
    pose proof (good_alloc N _ _ _ _ _ _ _ G3 z) as G4. pose proof (good_alloc N _ _ _ _ _ _ _ G4 z) as G5. set (m4 := m3 ++ [Some z]) in *. set (m5 := m4 ++ [Some z]) in *.
    set (bu := length m4). set (own4 := own3 ++ [Some WLeak]) in *. set (own5 := own4 ++ [Some WLeak]) in *.
    assert (Lo : length own3 = bl) by apply (g_len _ _ _ _ _ _ _ _ G3). assert (Lu : length own4 = bu) by apply (g_len _ _ _ _ _ _ _ _ G4).
    assert (Hbu : bu = S bl) by (unfold bu, m4; rewrite app_length; cbn; unfold bl; lia).
    assert (Ol : nth_error own5 bl = Some (Some WLeak)) by (unfold own5; rewrite nth_error_app1 by lia; unfold own4; rewrite <- Lo; apply nth_error_last).
    assert (Ou : nth_error own5 bu = Some (Some WLeak)) by (unfold own5; rewrite <- Lu; apply nth_error_last).
    assert (Keep : forall b x, nth_error own3 b = Some x -> b <> bl /\ b <> bu /\ nth_error own5 b = Some x /\ nth_error m5 b = nth_error m3 b).
    { intros b x Q. apply nth_lt in Q as Q'. split; [lia|]. split; [lia|]. unfold own5, own4, m5, m4. rewrite !nth_error_app1; auto; rewrite ?app_length; fold bl; lia. }
    assert (Kd : forall p, In (p, WData i) (dclaim i o) -> p <> bl /\ p <> bu /\ nth_error own5 p = Some (Some WLeak) /\ nth_error m5 p = nth_error (m_mem s) p).
    { intros p Q. destruct (A1 p Q) as (Q1 & Q2). destruct (U2 p Q1) as (V1 & V2). destruct (U3 p Q2) as (V3 & V4).
      pose proof (C1 p (WData i) ltac:(apply in_claims; auto)) as V5. destruct (Keep p (Some WLeak)) as (W1 & W2 & W3 & W4); [congruence|].
      split; auto. split; auto. split; auto. rewrite W4, V4. exact V2. }
    assert (D5 : data_rep N m5 (m_bufs s) o t).
    { unfold data_rep in *. destruct (ts_src t) as [b base|x|]; auto. destruct D as (D1 & D2 & D3 & p & D4 & D5). split; auto. split; auto. split; auto. exists p. split; auto.
      destruct (Kd p) as (_ & _ & _ & Q); [apply in_dclaim; eauto|]. exact (eq_trans Q D5). }
    rewrite (read_sim m5 (m_bufs s) (v_heap v) o t w (good_bufs_ok _ _ _ _ _ _ _ G5) F2 F4 D5 Er). cbn [bind]. rewrite Eg. cbn [bind].
    eexists. split; [reflexivity|].
    pose proof (good_write N _ _ _ _ _ _ _ G5 bl l Ol) as G6. pose proof (good_write N _ _ _ _ _ _ _ G6 bu u Ou) as G7. unfold m_put.
    set (m7 := list_set (list_set m5 bl (Some l)) bu (Some u)) in *.
    set (o' := mkObj (o_data o) (o_owner o) (o_index o) (o_start o) (o_end o) (o_len o) true (Some bl) (Some bu) band).
    assert (Ll : (bl < length m5)%nat /\ (bu < length m5)%nat).
    { unfold m5. rewrite app_length. fold bu. cbn. lia. }
    set (t' := mkTS (ts_src t) (ts_index t) (ts_start t) (ts_end t) (ts_len t) (Some (mkCache band l u))).
    destruct (good_finish N _ _ _ _ _ _ _ i o' t' G7 ltac:(auto) Hl) as (G8 & L8).
    - split; [cbn; auto|]. split.
      + unfold data_rep in *. cbn [ts_src t' o_owner o_data o_start o_len o']. destruct (ts_src t) as [b base|x|]; auto. destruct D5 as (Q1 & Q2 & Q3 & p & Q4 & Q5). split; auto. split; auto. split; auto.
        exists p. split; auto. destruct (Kd p) as (N1 & N2 & _); [apply in_dclaim; eauto|]. unfold m7. rewrite !list_set_nth_error_neq; auto.
      + unfold cache_rep. cbn. split; auto. split; auto. exists bl, bu. split; auto. split; auto. split.
        * unfold m7. rewrite list_set_nth_error_neq by lia. exact (list_set_nth_error_eq _ _ _ (proj1 Ll)).
        * apply list_set_nth_error_eq. rewrite list_set_length. exact (proj2 Ll).
    - apply nodup_claims; cbn [o_lower o_upper o']; [|intros b Q; injection Q as <-; intros Q; injection Q as Q; lia].
      intros p Q. destruct (Kd p Q) as (N1 & N2 & _). split; congruence.
    - intros b x Q. apply in_claims in Q as [Q|[(Q & _)|(Q & _)]].
      + apply in_dclaim in Q as (Q1 & Q2 & Q3). destruct (Kd b) as (_ & _ & Q & _); [apply in_dclaim; auto|]. exact Q.
      + cbn in Q. injection Q as <-. exact Ol.
      + cbn in Q. injection Q as <-. exact Ou.
    - eexists. split; [exact G8|]. rewrite L8. unfold own5, own4. rewrite !leaks_app, L3, L2, L1, !zlen_claims. cbn [o_lower o_upper o' one forgets is_leak].
      change (dclaim i o') with (dclaim i o). lia. }
  unfold ts_envelope. unfold cache_rep in K. destruct (ts_cache t) as [c|] eqn:Ec.
  - destruct K as (K1 & K2 & bl & bu & K3 & K4 & K5 & K6). rewrite K1, K2. cbn [andb]. destruct (Z.eqb_spec (kc_band c) band) as [Eb|Hb].
    + rewrite K3, K4. unfold cached. rewrite (m_get_ok _ _ _ K5), (m_get_ok _ _ _ K6). cbn [bind]. eexists. split; [reflexivity|]. exists own. unfold with_series. cbn [v_heap v_objs].
      rewrite list_set_same by auto. split; [exact G|]. cbn [forgets]. lia.
    + exact Re.
  - rewrite K. cbn [andb]. exact Re.
Qed.

(** Every call, and every program. *)
Theorem step_sim n s v o : sim n s v -> ~ misuse N v o ->
  match vstep N v o with
  | Ok (v', r) => stepped n s v o v' r
  | Throw e => mstep N false s o = Throw e
  | _ => True
  end.
Proof.
  intros S Hm. destruct o as [w|b|b base index start end_|len|i|i j|i j|i|i k|i k x|i j|i band]; cbn [vstep].
  - now apply sim_buf.
  - destruct (heap_get N (v_heap v) b) as [l|e| |] eqn:E; cbn [bind]; auto; [eapply sim_free; eauto|].
    unfold heap_get in E. destruct (nth_error (v_heap v) b) as [[?|]|]; discriminate.
  - destruct (nth_error (v_heap v) b) eqn:E; [|exact I]. eapply sim_view; eauto.
  - destruct (ts_new N len) as [t|e| |] eqn:E; cbn [bind]; auto; [now apply sim_new|].
    cbn [mstep]. unfold ts_new, op_new in *. destruct (len <? 0); [injection E as <-; reflexivity|discriminate].
  - destruct (series N v i) as [t|e| |] eqn:E; cbn [bind]; auto; [|now destruct (series_quiet v i e)]. apply sim_copy; auto.
    intros Q. apply Hm. exists t. auto.
  - destruct (series N v i) as [d|e| |] eqn:E; cbn [bind]; auto; [|now destruct (series_quiet v i e)].
    destruct (series N v j) as [t|e| |] eqn:E'; cbn [bind]; auto; [|now destruct (series_quiet v j e)]. apply sim_assign; auto.
    + intros Q. apply Hm. left. exists t. auto.
    + intros -> w Q. apply Hm. right. split; auto. exists d, w. auto.
  - destruct (series N v i) as [d|e| |] eqn:E; cbn [bind]; auto; [|now destruct (series_quiet v i e)].
    destruct (series N v j) as [t|e| |] eqn:E'; cbn [bind]; auto; [|now destruct (series_quiet v j e)].
    match goal with |- match bind ?g _ with _ => _ end => destruct g as [t'|e| |] eqn:E''; cbn [bind]; auto end.
    + exact (sim_move n s v i j d t S E E' t' E'').
    + now destruct (series_quiet _ _ _ E'').
  - destruct (series N v i) as [t|e| |] eqn:E; cbn [bind]; auto; [|now destruct (series_quiet v i e)]. eapply sim_destroy; eauto.
  - destruct (series N v i) as [t|e| |] eqn:E; cbn [bind]; auto; [|now destruct (series_quiet v i e)].
    pose proof (sim_get n s v i k t S E) as H. destruct (ts_get N (v_heap v) t k); cbn [bind]; auto.
  - destruct (series N v i) as [t|e| |] eqn:E; cbn [bind]; auto; [|now destruct (series_quiet v i e)].
    destruct (ts_set N (v_heap v) t k x) as [(h' & t')|e| |] eqn:Ew; cbn [bind]; auto; [eapply sim_set; eauto|eapply throw_set; eauto].
  - destruct (series N v i) as [t|e| |] eqn:E; cbn [bind]; auto; [|now destruct (series_quiet v i e)].
    destruct (series N v j) as [u|e| |] eqn:E'; cbn [bind]; auto; [|now destruct (series_quiet v j e)].
    pose proof (sim_plus n s v i j t u S E E') as H. destruct (ts_plus_assign N (v_heap v) t u) as [(h' & t')| | |]; cbn [bind]; auto.
  - destruct (series N v i) as [t|e| |] eqn:E; cbn [bind]; auto; [|now destruct (series_quiet v i e)].
    assert (Hlen : 0 <= ts_len t) by (destruct (Z.lt_ge_cases (ts_len t) 0); auto; exfalso; apply Hm; exists t; auto).
    pose proof (sim_env n s v i band t S E Hlen) as H. destruct (ts_envelope N (v_heap v) t band) as [(t' & (l & u))| | |]; cbn [bind]; auto. destruct H.
Qed.
Theorem run_sim n s v ops v' rs k : sim n s v -> vrun N v ops v' rs k -> exists s', mrun N false s ops = Ok (s', rs) /\ sim (n + k) s' v'.
Proof.
  intros S R. revert n s S. induction R as [v|v o v1 r ops v2 rs k Hm E R IH|v o e ops v2 rs k Hm E R IH]; intros n s S.
  - exists s. split; auto. now rewrite Z.add_0_r.
  - pose proof (step_sim n s v o S Hm) as H. rewrite E in H. destruct H as (s1 & E1 & S1). destruct (IH _ _ S1) as (s2 & E2 & S2).
    exists s2. cbn [mrun]. rewrite E1, E2. cbn [bind]. split; auto. now rewrite Z.add_assoc.
  - pose proof (step_sim n s v o S Hm) as H. rewrite E in H. destruct (IH _ _ S) as (s2 & E2 & S2).
    exists s2. cbn [mrun]. rewrite H, E2. cbn [bind]. auto.
Qed.
Lemma sim_init : sim 0 (m_init N) (v_init N).
Proof.
  exists []. split; [|reflexivity]. split; cbn; auto.
  - intros b. destruct b; cbn; split; discriminate.
  - intros b p E. destruct b; discriminate.
  - intros i _. destruct i; cbn; auto.
  - intros b w E. destruct b; discriminate.
Qed.
(** When everything is destroyed, what is still allocated are the forgotten arrays. *)
Lemma sim_gone n s v : sim n s v -> all_gone N v -> live (m_mem s) = n.
Proof.
  intros (own & G & L) (A & B). rewrite <- L. clear L.
  assert (P : forall b, match nth_error own b, nth_error (m_mem s) b with Some None, Some None | Some (Some WLeak), Some (Some _) | None, None => True | _, _ => False end).
  { intros b. pose proof (g_len _ _ _ _ _ _ _ _ G) as Ln. destruct (nth_error own b) as [[w|]|] eqn:E.
    - destruct (own_live N _ _ _ _ _ _ _ G b w E) as (l & ->). destruct (g_own _ _ _ _ _ _ _ _ G b w E) as [->|[(k & l' & _ & _ & Eh)|(i & o & _ & Eo & _)]]; auto; exfalso.
      + specialize (A k ltac:(congruence)). congruence.
      + pose proof (g_obj _ _ _ _ _ _ _ _ G i ltac:(auto)) as H. rewrite Eo in H. destruct (nth_error (v_objs v) i) as [[t|]|] eqn:Et; auto. specialize (B i ltac:(congruence)). congruence.
    - apply (g_dead _ _ _ _ _ _ _ _ G) in E. now rewrite E.
    - apply nth_error_None in E. rewrite (proj2 (nth_error_None _ _)); auto. lia. }
  clear G. unfold live, leaks. revert P. generalize (m_mem s). clear. intros m. revert own. induction m as [|x m IH]; intros [|w own] P.
  - reflexivity.
  - specialize (P O). destruct w as [[| | | |]|]; destruct P.
  - specialize (P O). destruct P.
  - pose proof (P O) as P0. cbn in P0. specialize (IH own (fun b => P (S b))). cbn [filter]. destruct w as [[| | | |]|], x; cbn [is_leak]; try destruct P0; rewrite ?zlen_cons; lia.
Qed.
End SeriesSim.
