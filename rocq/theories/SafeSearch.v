(** * The search of the UCR suite in any arithmetic: every access is inside its array and the search ends, whatever the numbers. *)
From Coq Require Import ZArith Bool Lia List.
From Verif Require TsProofs.
From Verif Require Import Outcome Num Lemire Spec SafeLemire Trillion TrillionSpec Search.
Import ListNotations.
Open Scope Z_scope.

Ltac get := match goal with |- context [zget ?l ?i] =>
  let x := fresh "x" in let E := fresh "E" in let H := fresh "H" in assert (H : 0 <= i < zlen l) by lia; destruct (zget_Ok l i H) as (x & E); clear H; rewrite E; clear E; cbn [bind] end.
Ltac put := match goal with |- context [zset ?l ?i ?v] =>
  let l' := fresh "l" in let E := fresh "E" in let L := fresh "L" in
  assert (E : 0 <= i < zlen l) by lia; apply (fun H => zset_Ok l i v H) in E; rewrite E; pose proof (zset_len _ _ _ _ E) as L; set (l' := list_set l _ _) in *; clearbody l'; clear E; cbn [bind] end.

Section Safe.
Context (N : NumOps).
Local Notation T := (num N).

(** ** dtw *)
Lemma cell_any (A B prev cost : list T) (r i j k : Z) c : 0 <= i < zlen A -> 0 <= j < zlen B -> zlen prev = 2 * r + 1 -> zlen cost = 2 * r + 1 ->
  k = j - i + r -> 0 <= k <= 2 * r -> Post (t_cell N A B prev r i j (cost, k, c)) (fun s => zlen (fst (fst s)) = 2 * r + 1 /\ snd (fst s) = k + 1).
Proof.
  intros Hi Hj Hp Hc Ek Hk. unfold t_cell. destruct ((i =? 0) && (j =? 0)) eqn:E0.
  - apply andb_true_iff in E0 as (E1 & E2). apply Z.eqb_eq in E1, E2. get. get. put. cbn [Post wp fst snd]. lia.
  - assert (Y : exists y, (if (j - 1 <? 0) || (k - 1 <? 0) then Ok (big N) else zget cost (k - 1)) = Ok y).
    { destruct ((j - 1 <? 0) || (k - 1 <? 0)) eqn:E; [eauto|]. apply orb_false_iff in E as (E1 & E2). apply Z.ltb_ge in E1, E2. apply zget_Ok. lia. }
    destruct Y as (y & ->). cbn [bind].
    assert (X : exists x, (if (i - 1 <? 0) || (2 * r <? k + 1) then Ok (big N) else zget prev (k + 1)) = Ok x).
    { destruct ((i - 1 <? 0) || (2 * r <? k + 1)) eqn:E; [eauto|]. apply orb_false_iff in E as (E1 & E2). apply Z.ltb_ge in E1, E2. apply zget_Ok. lia. }
    destruct X as (x & ->). cbn [bind].
    assert (X : exists x, (if (i - 1 <? 0) || (j - 1 <? 0) then Ok (big N) else zget prev k) = Ok x).
    { destruct ((i - 1 <? 0) || (j - 1 <? 0)) eqn:E; [eauto|]. apply zget_Ok. lia. }
    destruct X as (z & ->). cbn [bind]. get. get. put. cbn [Post wp fst snd]. lia.
Qed.
Lemma row_any (A B cb cost prev : list T) (m r i : Z) bsf k0 ret : zlen A = m -> zlen B = m -> zlen cb = m -> 0 <= r -> 0 <= i < m ->
  zlen cost = 2 * r + 1 -> zlen prev = 2 * r + 1 ->
  Post (t_row N A B cb m r bsf i (cost, prev, k0, ret)) (fun c => match c with
    | Next (a, b, k, v) => zlen a = 2 * r + 1 /\ zlen b = 2 * r + 1 /\ v = None /\ k = Some (Z.min (m - 1) (i + r) + 1 - i + r)
    | Break (_, _, _, v) => v <> None end).
Proof.
  intros LA LB Lc Hr Hi L1 L2. unfold t_row.
  eapply Post_seq.
  - apply (for_rule (fun j (s : list T * Z * T) => zlen (fst (fst s)) = 2 * r + 1 /\ snd (fst s) = j - i + r)).
    + cbn [fst snd]. split; auto. lia.
    + intros j ((c, k), mc) Hj (E1 & E2). cbn [fst snd] in E1, E2. eapply Post_conseq; [apply cell_any; lia|]. intros ((c', k'), mc') (F1 & F2). cbn [fst snd] in *. lia.
  - intros ((c, k), mc) (E1 & E2). cbn [fst snd] in E1, E2. replace (Z.max (Z.max 0 (i - r)) (Z.min (m - 1) (i + r) + 1)) with (Z.min (m - 1) (i + r) + 1) in E2 by lia.
    destruct (Z.ltb_spec (i + r) (m - 1)).
    + get. destruct (nleb N bsf _); cbn; [discriminate|]. subst k. auto.
    + cbn. subst k. auto.
Qed.
Lemma dtw_any (A B cb : list T) (m r : Z) bsf : zlen A = m -> zlen B = m -> zlen cb = m -> 0 <= r -> 1 <= m -> exists v, t_dtw N A B cb m r bsf = Ok v.
Proof.
  intros LA LB Lc Hr Hm. enough (P : Post (t_dtw N A B cb m r bsf) (fun _ => True)) by (destruct (Post_inv _ _ P) as (v & E & _); eauto).
  unfold t_dtw. eapply Post_seq.
  - apply (forb_rule (fun i (s : list T * list T * option Z * option T) => let '(a, b, k, v) := s in zlen a = 2 * r + 1 /\ zlen b = 2 * r + 1 /\ v = None /\ (0 < i -> k = Some (Z.min (m - 1) (i - 1 + r) + 1 - (i - 1) + r)))
                     (fun s => snd s <> None)).
    + rewrite zlen_zrepeat by lia. repeat (split; auto). lia.
    + intros i (((a, b), k), v) Hi (E1 & E2 & -> & _). eapply Post_conseq; [apply row_any; auto; lia|].
      intros [(((a', b'), k'), v')|(((a', b'), k'), v')]; [|now cbn]. intros (F1 & F2 & F3 & F4). split; [auto|]. split; [auto|]. split; [auto|]. intros _. replace (i + 1 - 1) with i by lia. auto.
  - intros (((a, b), k), v) H. destruct v as [v|]; [exact I|].
    destruct H as [(E1 & E2 & _ & Ek)|H]; [|now elim H]. rewrite (Ek ltac:(lia)). get. exact I.
Qed.

(** ** The bounds *)
Lemma kim_any (t q : list T) (j m : Z) mean std bsf : 3 <= m -> zlen q = m -> 0 <= j -> j + m <= zlen t -> exists v, t_kim N t q j m mean std bsf = Ok v.
Proof.
  intros Hm Lq Hj Lt. enough (P : Post (t_kim N t q j m mean std bsf) (fun _ => True)) by (destruct (Post_inv _ _ P) as (v & E & _); eauto).
  unfold t_kim. do 4 get. destruct (nleb N bsf _); [exact I|].
  do 2 get. destruct (nleb N bsf _); [exact I|]. do 2 get. destruct (nleb N bsf _); [exact I|]. do 2 get. destruct (nleb N bsf _); [exact I|]. do 2 get. exact I.
Qed.
Definition inside (m : Z) (order : list Z) : Prop := zlen order = m /\ Forall (fun o => 0 <= o < m) order.
Lemma inside_get m order i : inside m order -> 0 <= i < m -> exists o, zget order i = Ok o /\ 0 <= o < m.
Proof.
  intros (L & F) Hi. destruct (zget_Ok order i ltac:(lia)) as (o & E). exists o. split; auto. rewrite Forall_forall in F. apply F.
  unfold zget in E. destruct (i <? 0); [discriminate|]. destruct (nth_error order (Z.to_nat i)) eqn:En; [|discriminate]. injection E as <-. eapply nth_error_In; eauto.
Qed.
Lemma keogh_any order (t uo lo cb : list T) (j m : Z) mean std bsf : inside m order -> 0 <= j -> j + m <= zlen t -> zlen uo = m -> zlen lo = m -> zlen cb = m ->
  exists v cb', t_keogh N order t uo lo cb j m mean std bsf = Ok (v, cb') /\ zlen cb' = m.
Proof.
  intros Ho Hj Lt Lu Ll Lc. enough (P : Post (t_keogh N order t uo lo cb j m mean std bsf) (fun s => zlen (snd s) = m)) by (destruct (Post_inv _ _ P) as ((v & c) & E & L); eauto).
  unfold t_keogh. eapply Post_conseq; [apply (forb_rule (fun _ (s : T * list T) => zlen (snd s) = m) (fun s => zlen (snd s) = m)); [auto|]|].
  - intros i (lb, c) Hi L. cbn in L. unfold t_keogh_step. destruct (nltb N lb bsf); [|exact L]. cbn [negb].
    destruct (inside_get m order i Ho Hi) as (o & Eo & Ro). rewrite Eo. cbn [bind]. get. get.
    match goal with |- context [nltb N ?a ?b] => destruct (nltb N a b) end; cbn [bind]; [|get]; put; cbn [Post wp fst snd]; lia.
  - intros s [H|H]; exact H.
Qed.
Lemma keogh2_any order (qo cb l u : list T) (m : Z) mean std bsf : inside m order -> zlen qo = m -> zlen cb = m -> m <= zlen l -> m <= zlen u ->
  exists v cb', t_keogh2 N order qo cb l u m mean std bsf = Ok (v, cb') /\ zlen cb' = m.
Proof.
  intros Ho Lq Lc Ll Lu. enough (P : Post (t_keogh2 N order qo cb l u m mean std bsf) (fun s => zlen (snd s) = m)) by (destruct (Post_inv _ _ P) as ((v & c) & E & L); eauto).
  unfold t_keogh2. eapply Post_conseq; [apply (forb_rule (fun _ (s : T * list T) => zlen (snd s) = m) (fun s => zlen (snd s) = m)); [auto|]|].
  - intros i (lb, c) Hi L. cbn in L. unfold t_keogh2_step. destruct (nltb N lb bsf); [|exact L]. cbn [negb].
    destruct (inside_get m order i Ho Hi) as (o & Eo & Ro). rewrite Eo. cbn [bind]. get. get. get. put. cbn [Post wp fst snd]. lia.
  - intros s [H|H]; exact H.
Qed.
Lemma suffix_any (d cb : list T) (m : Z) : 1 <= m -> zlen d = m -> zlen cb = m -> exists cb', t_suffix N d cb m = Ok cb' /\ zlen cb' = m.
Proof.
  intros Hm Ld Lc. enough (P : Post (t_suffix N d cb m) (fun s => zlen s = m)) by (destruct (Post_inv _ _ P) as (c & E & L); eauto).
  unfold t_suffix. get. put. eapply Post_conseq; [apply (for_rule (fun _ (s : list T) => zlen s = m)); [lia|]|auto].
  intros i s Hi L'. get. get. put. cbn [Post wp fst snd]. lia.
Qed.
Definition sized (m : Z) (w : scratch N) : Prop := zlen (w_cb N w) = m /\ zlen (w_cb1 N w) = m /\ zlen (w_cb2 N w) = m /\ zlen (w_tz N w) = m.
Lemma window_any (t q : list T) order (qo uo lo l u : list T) (j m r : Z) mean std bsf w : 3 <= m -> 0 <= r -> inside m order -> zlen q = m -> zlen qo = m -> zlen uo = m -> zlen lo = m ->
  m <= zlen l -> m <= zlen u -> 0 <= j -> j + m <= zlen t -> sized m w ->
  exists res w', t_window N t q order qo uo lo l u j m r mean std bsf w = Ok (res, w') /\ sized m w'.
Proof.
  intros Hm Hr Ho Lq Lqo Luo Llo Ll Lu Hj Lt (S0 & S1 & S2 & S3). unfold t_window.
  destruct (kim_any t q j m mean std bsf) as (k & ->); auto. cbn [bind]. destruct (nltb N k bsf); [|repeat eexists; auto].
  destruct (keogh_any order t uo lo (w_cb1 N w) j m mean std bsf) as (k1 & cb1 & -> & L1); auto. cbn [bind]. destruct (nltb N k1 bsf); [|do 2 eexists; split; [reflexivity|repeat split; auto]].
  assert (P : Post (for_ 0 m (fun k tz => x <- zget t (k + j);; zset tz k (znorm N mean std x)) (w_tz N w)) (fun s => zlen s = m)).
  { eapply Post_conseq; [apply (for_rule (fun _ (s : list T) => zlen s = m)); [auto|]|auto]. intros i s Hi L'. get. rewrite zset_Ok by lia. cbn. unfold zlen. rewrite list_set_length. exact L'. }
  cbn [w_tz w_cb w_cb1 w_cb2]. destruct (Post_inv _ _ P) as (tz & -> & L3). cbn [bind].
  destruct (keogh2_any order qo (w_cb2 N w) l u m mean std bsf) as (k2 & cb2 & E2 & L2); auto. cbn [w_cb2 w_cb]. rewrite E2. cbn [bind w_cb]. destruct (nltb N k2 bsf); [|do 2 eexists; split; [reflexivity|repeat split; auto]].
  assert (X : exists cb, (if nltb N k2 k1 then t_suffix N cb1 (w_cb N w) m else t_suffix N cb2 (w_cb N w) m) = Ok cb /\ zlen cb = m) by (destruct (nltb N k2 k1); apply suffix_any; auto; lia).
  destruct X as (cb & -> & L4). cbn [bind]. destruct (dtw_any tz q cb m r bsf) as (v & ->); auto; [lia|]. cbn [bind].
  do 2 eexists. split; [reflexivity|]. repeat split; auto.
Qed.

(** ** Reading *)
Lemma read_n_any n : forall xs d, exists d', read_n N n (mkNFile N xs false) d = Ok (firstn n xs, mkNFile N (skipn n xs) false, d').
Proof.
  induction n as [|n IH]; intros xs d; [exists d; reflexivity|]. destruct xs as [|x xs]; [exists d; reflexivity|].
  destruct (IH xs (Some x)) as (d' & E). exists d'. cbn. cbn in E. rewrite E. reflexivity.
Qed.
Lemma read_query_any n : forall xs bad d q ex ex2, (n <= length xs)%nat -> exists ex' ex2' d', read_query N n (mkNFile N xs bad) d q ex ex2 = Ok (q ++ firstn n xs, ex', ex2', d').
Proof.
  induction n as [|n IH]; intros xs bad d q ex ex2 H.
  - cbn [firstn]. rewrite app_nil_r. destruct xs as [|x xs]; cbn; [destruct bad; cbn|]; eauto.
  - destruct xs as [|x xs]; [cbn in H; lia|]. cbn [read_query scan f_vals f_bad]. cbn in H.
    destruct (IH xs bad (Some x) (q ++ [x]) (nadd N ex x) (nadd N ex2 (nmul N x x)) ltac:(lia)) as (e & e2 & d' & E). rewrite E. exists e, e2, d'. now rewrite <- app_assoc.
Qed.
Lemma read_all_any (l : list (option T)) : (forall k, 0 <= k < zlen l -> exists x, zget l k = Ok (Some x)) -> exists v, read_all N l = Ok v /\ zlen v = zlen l.
Proof.
  induction l as [|o l IH]; intros H; [exists []; auto|].
  destruct (H 0) as (x & Ex); [rewrite zlen_cons; pose proof (zlen_nonneg l); lia|]. cbn in Ex. injection Ex as ->.
  destruct IH as (v & E & L).
  { intros k Hk. destruct (H (k + 1)) as (y & Ey); [rewrite zlen_cons; lia|]. exists y. rewrite <- Ey. change (Some x :: l) with ([Some x] ++ l).
    rewrite zget_app_r by (unfold zlen; cbn; lia). f_equal. unfold zlen; cbn. lia. }
  exists (x :: v). cbn [read_all]. rewrite E. cbn [bind]. rewrite !zlen_cons. split; auto. lia.
Qed.
Lemma gather_any (x : list T) order : Forall (fun o => 0 <= o < zlen x) order -> exists y, gather N x order = Ok y /\ zlen y = zlen order.
Proof.
  induction 1 as [|o order Ho F IH]; [exists []; auto|]. destruct IH as (y & E & L). cbn [gather]. get. rewrite E. cbn [bind]. eexists. split; [reflexivity|]. rewrite !zlen_cons. lia.
Qed.
Lemma envelope_any (t : list T) r : 0 <= r <= zlen t - 1 -> exists l u, (lu <- lower_upper_lemire N t r;; let '(l, u) := lu in l <- read_all N l;; u <- read_all N u;; Ok (l, u)) = Ok (l, u) /\ zlen l = zlen t /\ zlen u = zlen t.
Proof.
  intros Hr. destruct (Post_inv _ _ (lemire_any N t r Hr)) as ((l & u) & -> & L1 & L2 & H). cbn [bind fst snd] in *.
  destruct (read_all_any l) as (l' & E1 & L1'). { intros k Hk. destruct (H k ltac:(lia)) as ((x & Ex & _) & _). eauto. }
  destruct (read_all_any u) as (u' & E2 & L2'). { intros k Hk. destruct (H k ltac:(lia)) as (_ & (x & Ex & _)). eauto. }
  exists l', u'. rewrite E1. cbn [bind]. rewrite E2. cbn [bind]. split; auto. lia.
Qed.

(** ** The search *)
Definition fits (m : Z) (qy : query N) : Prop :=
  inside m (qu_order N qy) /\ zlen (qu_q N qy) = m /\ zlen (qu_qo N qy) = m /\ zlen (qu_uo N qy) = m /\ zlen (qu_lo N qy) = m.
Lemma prepare_any sort xs bad (m r : Z) : 1 <= m <= zlen xs -> 0 <= r < m -> (forall l : list T, inside (zlen l) (sort l)) ->
  exists qy d, prepare N sort (mkNFile N xs bad) m r = Ok (qy, d) /\ fits m qy.
Proof.
  intros Hm Hr Hs. unfold prepare. destruct (read_query_any (Z.to_nat m) xs bad None [] (nzero N) (nzero N)) as (ex & ex2 & d & ->); [unfold zlen in Hm; lia|]. cbn [bind app].
  assert (Lq : zlen (firstn (Z.to_nat m) xs) = m) by (unfold zlen in *; rewrite firstn_length; lia).
  destruct (Z.ltb_spec (zlen (firstn (Z.to_nat m) xs)) m); [lia|]. set (q := map _ _).
  assert (Lq' : zlen q = m) by (unfold q, zlen in *; now rewrite map_length). clearbody q.
  destruct (envelope_any q r ltac:(lia)) as (l & u & E & Ll & Lu). apply bind_Ok_inv in E as ((l0 & u0) & El & E). rewrite El. cbn [bind].
  apply bind_Ok_inv in E as (l1 & E1 & E). rewrite E1. cbn [bind]. apply bind_Ok_inv in E as (u1 & E2 & E). rewrite E2. cbn [bind]. injection E as -> ->.
  pose proof (Hs q) as Ho. rewrite Lq' in Ho. pose proof Ho as (Lo & Fo).
  destruct (gather_any q (sort q)) as (qo & -> & L1). { now rewrite Lq'. }
  destruct (gather_any u (sort q)) as (uo & -> & L2). { now rewrite Lu, Lq'. }
  destruct (gather_any l (sort q)) as (lo & -> & L3). { now rewrite Ll, Lq'. }
  cbn [bind]. exists (mkQuery N q (sort q) qo lo uo), d. split; auto. unfold fits. cbn. repeat split; auto; lia.
Qed.

(** What is known of the best so far: its distance is 1e20 or less than that, its location a window among the first [K]. *)
Hypothesis trans : forall x y z : T, nltb N x y = true -> nltb N y z = true -> nltb N x z = true.
Definition best_any (K : Z) (b : best N) : Prop :=
  (b_bsf N b = big N /\ b_loc N b = 0) \/ (nltb N (b_bsf N b) (big N) = true /\ 0 <= b_loc N b < K).
Lemma best_mono K K' b : K <= K' -> best_any K b -> best_any K' b.
Proof. unfold best_any. intros H [A|(A & B)]; [now left|right]. split; auto. lia. Qed.
Lemma step_any qy (m r base : Z) (buffer l u : list T) i ex ex2 t w b : 3 <= m -> 0 <= r -> 0 <= base -> fits m qy -> zlen l = zlen buffer -> zlen u = zlen buffer -> 0 <= i < zlen buffer ->
  zlen t = 2 * m -> sized m w -> best_any (base + Z.max 0 (i - m + 1)) b ->
  Post (p_step N qy m r base buffer l u i (ex, ex2, t, w, b)) (fun s => let '(_, _, t, w, b) := s in zlen t = 2 * m /\ sized m w /\ best_any (base + Z.max 0 (i + 1 - m + 1)) b).
Proof.
  intros Hm Hr Hbase (F1 & F2 & F3 & F4 & F5) Ll Lu Hi Lt Sw Hb. unfold p_step. get. pose proof (Z.mod_pos_bound i m ltac:(lia)) as Mi. put. put.
  destruct (Z.leb_spec (m - 1) i) as [Hge|Hlt].
  - pose proof (Z.mod_pos_bound (i + 1) m ltac:(lia)) as Mj.
    assert (SK : forall v : list T, zlen v = zlen buffer -> m <= zlen (skipn (Z.to_nat (i - (m - 1))) v)). { intros v Lv. unfold zlen in *. rewrite skipn_length. lia. }
    match goal with |- context [t_window N ?a ?q ?o ?qo ?uo ?lo ?l ?u ?j m r ?me ?sd ?bs w] =>
      destruct (window_any a q o qo uo lo l u j m r me sd bs w) as (res & w' & E & Sw'); auto; try lia end.
    rewrite E. cbn [bind]. get. cbn [Post wp]. split; [lia|]. split; auto.
    destruct res as [v|]; [destruct (nltb N v (b_bsf N b)) eqn:Ev|].
    + right. cbn [b_bsf b_loc]. split; [|lia]. destruct Hb as [(X & _)|(X & _)]; [now rewrite X in Ev|eauto].
    + eapply best_mono; [|exact Hb]. lia.
    + eapply best_mono; [|exact Hb]. lia.
  - cbn [Post wp]. split; [lia|]. split; auto. eapply best_mono; [|exact Hb]. lia.
Qed.
Lemma chunk_any qy (m r base : Z) (buffer t : list T) w b : 3 <= m -> 0 <= r < m -> 0 <= base -> fits m qy -> m <= zlen buffer -> zlen t = 2 * m -> sized m w -> best_any base b ->
  exists t' w' b', chunk N qy m r base buffer t w b = Ok (t', w', b') /\ zlen t' = 2 * m /\ sized m w' /\ best_any (base + (zlen buffer - m + 1)) b'.
Proof.
  intros Hm Hr Hbase Hq HB Lt Sw Hb. unfold chunk.
  destruct (envelope_any buffer r ltac:(lia)) as (l & u & E & Ll & Lu). apply bind_Ok_inv in E as ((l0 & u0) & El & E). rewrite El. cbn [bind].
  apply bind_Ok_inv in E as (l1 & E1 & E). rewrite E1. cbn [bind]. apply bind_Ok_inv in E as (u1 & E2 & E). rewrite E2. cbn [bind]. injection E as -> ->.
  assert (P : Post (for_ 0 (zlen buffer) (p_step N qy m r base buffer l u) (nzero N, nzero N, t, w, b))
    (fun s => let '(_, _, t, w, b) := s in zlen t = 2 * m /\ sized m w /\ best_any (base + Z.max 0 (zlen buffer - m + 1)) b)).
  { replace (zlen buffer - m + 1) with (Z.max 0 (zlen buffer) - m + 1) by lia.
    apply (for_rule (fun i (s : pstate N) => let '(_, _, t, w, b) := s in zlen t = 2 * m /\ sized m w /\ best_any (base + Z.max 0 (i - m + 1)) b)).
    - split; auto. split; auto. eapply best_mono; [|exact Hb]. lia.
    - intros i ((((ex, ex2), t1), w1), b1) Hi (A1 & A2 & A3). apply step_any; auto; lia. }
  destruct (Post_inv _ _ P) as (((((ex & ex2) & t1) & w1) & b1) & -> & A1 & A2 & A3). cbn [bind]. exists t1, w1, b1. split; auto. split; auto. split; auto.
  eapply best_mono; [|exact A3]. lia.
Qed.

Lemma chunks_any qy (epoch m r : Z) : 3 <= m <= epoch -> 0 <= r < m -> fits m qy -> forall fuel it xs d (buffer t : list T) w b,
  let base := it * (epoch - m + 1) in
  0 <= it -> 0 < Z.of_nat fuel -> zlen xs < Z.of_nat fuel ->
  (0 < it -> zlen buffer = epoch) -> zlen t = 2 * m -> sized m w -> best_any base b ->
  let n := zlen xs + (if it =? 0 then 0 else base + (m - 1)) in
  exists loc B, chunks N fuel epoch qy m r it (mkNFile N xs false) d buffer t w b = Ok (mkFound N loc B (Z.max n (m - 1))) /\ best_any (Z.max 0 (n - m + 1)) (mkBest N B loc).
Proof.
  intros Hm Hr Hq. induction fuel as [|fuel IH]; intros it xs d buffer t w b base Hit Hf0 Hf Hbuf Lt Sw Hb n; [lia|].
  cbn [chunks]. assert (Hb0 : 0 <= base) by (unfold base; nia). pose proof (zlen_nonneg xs) as Hx.
  assert (Hh : exists hd xs' d', (if it =? 0 then read_n N (Z.to_nat (m - 1)) (mkNFile N xs false) d else Ok (zslice buffer (epoch - m + 1) (m - 1), mkNFile N xs false, d)) = Ok (hd, mkNFile N xs' false, d') /\
     zlen hd <= m - 1 /\ (zlen hd < m - 1 -> xs' = []) /\ zlen xs' <= zlen xs /\ Z.max n (m - 1) = base + (m - 1) + zlen xs').
  { unfold n. destruct (Z.eqb_spec it 0) as [->|Hi].
    - destruct (read_n_any (Z.to_nat (m - 1)) xs d) as (d' & ->). do 3 eexists. split; [reflexivity|]. unfold base, zlen in *. rewrite firstn_length, skipn_length.
      split; [lia|]. split; [|lia]. intros H. apply skipn_all2. lia.
    - do 3 eexists. split; [reflexivity|]. rewrite TsProofs.zslice_len by (rewrite ?Hbuf; lia). lia. }
  destruct Hh as (hd & xs' & d1 & -> & L1 & L2 & L3 & En). cbn [bind]. destruct (Z.ltb_spec epoch (zlen hd)); [lia|].
  destruct (read_n_any (Z.to_nat (epoch - (m - 1))) xs' d1) as (d2 & ->). cbn [bind]. fold base.
  set (tl := firstn _ xs'). assert (Ltl : zlen tl = Z.min (epoch - (m - 1)) (zlen xs')) by (unfold tl, zlen; rewrite firstn_length; lia).
  pose proof (zlen_nonneg xs') as Hx'.
  destruct (Z.eqb_spec (zlen tl) 0) as [E0|E0].
  - assert (zlen xs' = 0) by lia. exists (b_loc N b), (b_bsf N b). split; [do 2 f_equal; lia|]. destruct b as [bs lc]. eapply best_mono; [|exact Hb]. lia.
  - assert (Hd : zlen hd = m - 1). { destruct (Z_lt_ge_dec (zlen hd) (m - 1)) as [Hs|]; [|lia]. rewrite (L2 Hs) in Ltl. change (zlen []) with 0 in Ltl. lia. }
    assert (LB : zlen (hd ++ tl) = m - 1 + zlen tl) by (rewrite zlen_app; lia).
    destruct (chunk_any qy m r base (hd ++ tl) t w b) as (t' & w' & b' & -> & Lt' & Sw' & Hb'); auto; try lia. cbn [bind].
    destruct (Z.ltb_spec (m - 1 + zlen tl) epoch).
    + exists (b_loc N b'), (b_bsf N b'). split; [do 2 f_equal; lia|]. destruct b' as [bs lc]. eapply best_mono; [|exact Hb']. lia.
    + assert (Ls : zlen (skipn (Z.to_nat (epoch - (m - 1))) xs') = zlen xs' - zlen tl) by (unfold zlen in *; rewrite skipn_length; lia).
      assert (Eb : (it + 1) * (epoch - m + 1) = base + (epoch - m + 1)) by (unfold base; lia).
      specialize (IH (it + 1) (skipn (Z.to_nat (epoch - (m - 1))) xs') d2 (hd ++ tl) t' w' b'). cbv zeta in IH. rewrite Eb in IH.
      destruct (Z.eqb_spec (it + 1) 0); [lia|].
      destruct IH as (loc & B & E & Hbest); auto; try lia.
      { replace (epoch - m + 1) with (zlen (hd ++ tl) - m + 1) by lia. auto. }
      exists loc, B. rewrite E. split; [do 2 f_equal; lia|]. eapply best_mono; [|exact Hbest]. lia.
Qed.

Lemma calculate_any fuel (epoch : Z) sort xs qs bad (m r : Z) : 3 <= m <= epoch -> m <= zlen qs -> 0 <= r < m -> (forall l : list T, inside (zlen l) (sort l)) -> zlen xs < Z.of_nat fuel ->
  exists loc B, calculate N fuel epoch sort (mkNFile N xs false) (mkNFile N qs bad) m r = Ok (mkFound N loc B (Z.max (zlen xs) (m - 1))) /\ best_any (Z.max 0 (zlen xs - m + 1)) (mkBest N B loc).
Proof.
  intros Hm Hq Hr Hs Hf. unfold calculate. destruct (prepare_any sort qs bad m r ltac:(lia) Hr Hs) as (qy & d & -> & F). cbn [bind].
  pose proof (zlen_nonneg xs).
  destruct (chunks_any qy epoch m r Hm Hr F fuel 0 xs d [] (zrepeat (nzero N) (2 * m)) (mkScratch N (zrepeat (nzero N) m) (zrepeat (nzero N) m) (zrepeat (nzero N) m) (zrepeat (nzero N) m)) (mkBest N (big N) 0)) as (loc & B & E & Hb); auto; try lia.
  - apply zlen_zrepeat; lia.
  - repeat split; cbn; apply zlen_zrepeat; lia.
  - now left.
  - cbn [Z.eqb] in *. rewrite Z.add_0_r in *. eauto.
Qed.
End Safe.
