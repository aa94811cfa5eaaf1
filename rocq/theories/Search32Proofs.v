(** * The search with 32-bit ints against the search with unbounded ints. *)
From Coq Require Import ZArith Bool Lia List.
From Verif Require Import Outcome Num Lemire Trillion Search Ints IntsProofs IntsMatch Search32.
Import ListNotations.
Open Scope Z_scope.

(** Without the counters. *)
Definition er {X} (o : outcome (X * counts)) : outcome X := '(x, _) <- o;; Ok x.
(** The same but for the counters, which stay within [B]. *)
Definition fit {X} (o32 : outcome (X * counts)) (o : outcome X) (B : counts -> Prop) : Prop :=
  er o32 = o /\ forall x c, o32 = Ok (x, c) -> B c.
Definition lec {X} (o32 : outcome (X * counts)) (o : outcome X) : Prop := er o32 = o \/ o32 = UB IntOverflow.

Lemma er_inv {X} (o32 : outcome (X * counts)) x : er o32 = Ok x -> exists c, o32 = Ok (x, c).
Proof. destruct o32 as [[y c]| | |]; cbn; intros H; try discriminate. injection H as ->. eauto. Qed.

(** [n] windows seen: each is pruned by one of the three bounds or compared by dtw. *)
Definition upto (n : Z) (c : counts) : Prop :=
  0 <= c_kim c /\ 0 <= c_keogh c /\ 0 <= c_keogh2 c /\ 0 <= c_dtw c /\ c_kim c + c_keogh c + c_keogh2 c + c_dtw c = n.
Lemma upto_le n n' c : upto n c -> n = n' -> upto n' c.
Proof. unfold upto. lia. Qed.

Section Search32Proofs.
Context (N : NumOps).
Local Notation T := (num N).
Local Notation scratch := (scratch N).
Local Notation best := (best N).
Local Notation pstate := (pstate N).

Lemma window_lec t q order qo uo lo l u j m r mean std bsf w c :
  lec (t_window32 N t q order qo uo lo l u j m r mean std bsf w c) (t_window N t q order qo uo lo l u j m r mean std bsf w).
Proof.
  unfold t_window32, t_window.
  destruct (t_kim N t q j m mean std bsf) as [lb| | |]; cbn [bind]; try (now left).
  assert (CK : forall z (k : Z -> counts) (x : option T * scratch), lec (n <- chk z;; Ok (x, k n)) (Ok x)).
  { intros z k x. unfold chk. destruct (_ && _); cbn [bind]; [now left|now right]. }
  destruct (nltb N lb bsf); [|apply CK].
  destruct (t_keogh N order t uo lo _ j m mean std bsf) as [[lbk cb1]| | |]; cbn [bind]; try (now left).
  destruct (nltb N lbk bsf); [|apply CK].
  destruct (for_ 0 m _ _) as [tz| | |]; cbn [bind]; try (now left).
  destruct (t_keogh2 N order qo _ l u m mean std bsf) as [[lbk2 cb2]| | |]; cbn [bind]; try (now left).
  destruct (nltb N lbk2 bsf); [|apply CK].
  destruct (if nltb N lbk2 lbk then _ else _) as [cb| | |]; cbn [bind]; try (now left).
  destruct (t_dtw N tz q cb m r bsf); cbn [bind]; now left.
Qed.
Lemma window_fit t q order qo uo lo l u j m r mean std bsf w c n : upto n c -> n + 1 <= int_max ->
  fit (t_window32 N t q order qo uo lo l u j m r mean std bsf w c) (t_window N t q order qo uo lo l u j m r mean std bsf w) (upto (n + 1)).
Proof.
  intros U Hn. unfold t_window32, t_window.
  assert (BAD : forall (o : outcome (option T * scratch)), (forall x, o <> Ok x) -> forall o32 : outcome (option T * scratch * counts), er o32 = o -> fit o32 o (upto (n + 1))).
  { intros o H o32 E. split; auto. intros x c' ->. cbn in E. now destruct (H x). }
  destruct (t_kim N t q j m mean std bsf) as [lb| | |]; cbn [bind]; try (apply BAD; [discriminate|reflexivity]).
  assert (CK : forall z (k : Z -> counts) (x : option T * scratch), 0 <= z <= int_max -> upto (n + 1) (k z) -> fit (n <- chk z;; Ok (x, k n)) (Ok x) (upto (n + 1))).
  { intros z k x Hz Hk. rewrite chk_in by (unfold int_min; lia). cbn [bind]. split; [reflexivity|]. intros ? ? [= <- <-]. exact Hk. }
  unfold upto in U.
  destruct (nltb N lb bsf); [|apply CK; [lia|unfold upto; cbn; lia]].
  destruct (t_keogh N order t uo lo _ j m mean std bsf) as [[lbk cb1]| | |]; cbn [bind]; try (apply BAD; [discriminate|reflexivity]).
  destruct (nltb N lbk bsf); [|apply CK; [lia|unfold upto; cbn; lia]].
  destruct (for_ 0 m _ _) as [tz| | |]; cbn [bind]; try (apply BAD; [discriminate|reflexivity]).
  destruct (t_keogh2 N order qo _ l u m mean std bsf) as [[lbk2 cb2]| | |]; cbn [bind]; try (apply BAD; [discriminate|reflexivity]).
  destruct (nltb N lbk2 bsf); [|apply CK; [lia|unfold upto; cbn; lia]].
  destruct (if nltb N lbk2 lbk then _ else _) as [cb| | |]; cbn [bind]; try (apply BAD; [discriminate|reflexivity]).
  destruct (t_dtw N tz q cb m r bsf); cbn [bind]; try (apply BAD; [discriminate|reflexivity]).
  split; [reflexivity|]. intros ? ? [= <- <-]. unfold upto. cbn. lia.
Qed.

Section Params.
Context (qy : query N) (epoch m r : Z).
Hypothesis Hm : 1 <= m <= epoch.
Hypothesis He : epoch <= 1000000.
Hypothesis Hr : - 536870912 <= r <= 536870912.
Local Notation width := (epoch - m + 1).

Lemma base_cases it : base32 epoch m it = chk (it * width).
Proof. unfold base32. rewrite chk_in by (unfold int_min, int_max; lia). cbn [bind]. rewrite chk_in by (unfold int_min, int_max; lia). reflexivity. Qed.

Lemma step_lec it buffer l u i (s : pstate) c :
  lec (p_step32 N qy epoch m r it buffer l u i (s, c)) (p_step N qy m r (it * width) buffer l u i s).
Proof.
  destruct s as ((((ex & ex2) & t) & w) & b). unfold p_step32, p_step.
  destruct (zget buffer i) as [d| | |]; cbn [bind]; try (now left).
  destruct (zset t (i mod m) d) as [t1| | |]; cbn [bind]; try (now left).
  destruct (zset t1 (i mod m + m) d) as [t2| | |]; cbn [bind]; try (now left).
  destruct (m - 1 <=? i); [|now left].
  match goal with |- lec (bind (t_window32 N ?a ?b ?c ?d ?e ?f ?g ?h ?i0 ?j ?k ?l0 ?m0 ?n ?o ?p) _) _ =>
    destruct (window_lec a b c d e f g h i0 j k l0 m0 n o p) as [E|E]; [|rewrite E; now right];
    destruct (t_window32 N a b c d e f g h i0 j k l0 m0 n o p) as [[[res w'] c']| | |]; rewrite <- E; cbn [er bind] end; try (now left).
  assert (X : forall (b1 : best) (c' : counts), lec (x <- zget t2 ((i + 1) mod m);; Ok ((nsub N (nadd N ex d) x, nsub N (nadd N ex2 (nmul N d d)) (nmul N x x), t2, w', b1), c'))
     (x <- zget t2 ((i + 1) mod m);; Ok (nsub N (nadd N ex d) x, nsub N (nadd N ex2 (nmul N d d)) (nmul N x x), t2, w', b1))).
  { intros. destruct (zget t2 _); now left. }
  destruct res as [dist|]; [|apply X]. destruct (nltb N dist (b_bsf N b)); [|apply X].
  rewrite base_cases. unfold chk. destruct (_ && _); cbn [bind]; [apply X|now right].
Qed.
Lemma step_fit it buffer l u i (s : pstate) c : 0 <= it -> it * width + Z.max 0 (i + 1 - (m - 1)) <= int_max -> upto (it * width + Z.max 0 (i - (m - 1))) c ->
  fit (p_step32 N qy epoch m r it buffer l u i (s, c)) (p_step N qy m r (it * width) buffer l u i s) (upto (it * width + Z.max 0 (i + 1 - (m - 1)))).
Proof.
  intros Hit Hmax U. destruct s as ((((ex & ex2) & t) & w) & b). unfold p_step32, p_step.
  assert (BAD : forall (o : outcome pstate), (forall x, o <> Ok x) -> forall o32 : outcome (pstate * counts), er o32 = o -> fit o32 o (upto (it * width + Z.max 0 (i + 1 - (m - 1))))).
  { intros o H o32 E. split; auto. intros x c' ->. cbn in E. now destruct (H x). }
  destruct (zget buffer i) as [d| | |]; cbn [bind]; try (apply BAD; [discriminate|reflexivity]).
  destruct (zset t (i mod m) d) as [t1| | |]; cbn [bind]; try (apply BAD; [discriminate|reflexivity]).
  destruct (zset t1 (i mod m + m) d) as [t2| | |]; cbn [bind]; try (apply BAD; [discriminate|reflexivity]).
  destruct (Z.leb_spec (m - 1) i) as [Hi|Hi].
  - match goal with |- fit (bind (t_window32 N ?a ?b ?c ?d ?e ?f ?g ?h ?i0 ?j ?k ?l0 ?m0 ?n ?o ?p) _) _ _ =>
      destruct (window_fit a b c d e f g h i0 j k l0 m0 n o p _ U ltac:(lia)) as (E & Hc);
      destruct (t_window32 N a b c d e f g h i0 j k l0 m0 n o p) as [[[res w'] c']| | |]; rewrite <- E; cbn [er bind] end;
      try (apply BAD; [discriminate|reflexivity]).
    specialize (Hc _ _ eq_refl).
    assert (X : forall b1 : best, fit (x <- zget t2 ((i + 1) mod m);; Ok ((nsub N (nadd N ex d) x, nsub N (nadd N ex2 (nmul N d d)) (nmul N x x), t2, w', b1), c'))
       (x <- zget t2 ((i + 1) mod m);; Ok (nsub N (nadd N ex d) x, nsub N (nadd N ex2 (nmul N d d)) (nmul N x x), t2, w', b1)) (upto (it * width + Z.max 0 (i + 1 - (m - 1))))).
    { intros. destruct (zget t2 _); cbn [bind]; try (apply BAD; [discriminate|reflexivity]). split; [reflexivity|]. intros ? ? [= <- <-]. eapply upto_le; eauto. lia. }
    destruct res as [dist|]; [|apply X]. destruct (nltb N dist (b_bsf N b)); [|apply X].
    rewrite base_cases, chk_in by (unfold int_min; nia). cbn [bind]. apply X.
  - split; [reflexivity|]. intros ? ? [= <- <-]. eapply upto_le; eauto. lia.
Qed.

Lemma loop_lec it buffer l u n : forall i (s : pstate) c,
  lec (loop n i (p_step32 N qy epoch m r it buffer l u) (s, c)) (loop n i (p_step N qy m r (it * width) buffer l u) s).
Proof.
  induction n as [|n IH]; intros i s c; cbn [loop]; [now left|].
  destruct (step_lec it buffer l u i s c) as [E|E]; [|rewrite E; now right].
  destruct (p_step32 N qy epoch m r it buffer l u i (s, c)) as [[s' c']| | |]; rewrite <- E; cbn [er bind]; try (now left). apply IH.
Qed.
Lemma loop_fit it buffer l u n : forall i (s : pstate) c, 0 <= it -> it * width + Z.max 0 (i + Z.of_nat n - (m - 1)) <= int_max -> upto (it * width + Z.max 0 (i - (m - 1))) c ->
  fit (loop n i (p_step32 N qy epoch m r it buffer l u) (s, c)) (loop n i (p_step N qy m r (it * width) buffer l u) s)
      (upto (it * width + Z.max 0 (i + Z.of_nat n - (m - 1)))).
Proof.
  induction n as [|n IH]; intros i s c Hit Hmax U; cbn [loop].
  - split; [reflexivity|]. intros ? ? [= <- <-]. eapply upto_le; eauto. lia.
  - destruct (step_fit it buffer l u i s c Hit ltac:(lia) U) as (E & Hc).
    destruct (p_step32 N qy epoch m r it buffer l u i (s, c)) as [[s' c']| | |]; rewrite <- E; cbn [er bind]; try (split; [reflexivity|discriminate]).
    replace (i + Z.of_nat (S n)) with (i + 1 + Z.of_nat n) in * by lia. apply IH; auto. exact (Hc _ _ eq_refl).
Qed.

Lemma dot_ok : Z.quot 1000000 width =? 0 = false.
Proof. apply Z.eqb_neq. rewrite Z.quot_div_nonneg by lia. pose proof (Z.div_le_lower_bound 1000000 width 1 ltac:(lia) ltac:(lia)). lia. Qed.

Lemma chunk_lec it buffer t w b c :
  lec (chunk32 N qy epoch m r it buffer t w b c) (chunk N qy m r (it * width) buffer t w b).
Proof.
  unfold chunk32, chunk. destruct (lemire_le N buffer r) as [E|E]; [|rewrite E; now right]. rewrite E.
  destruct (lower_upper_lemire N buffer r) as [[l u]| | |]; cbn [bind]; try (now left).
  rewrite chk_in by (unfold int_min, int_max; lia). cbn [bind]. rewrite chk_in by (unfold int_min, int_max; lia). cbn [bind]. rewrite dot_ok.
  destruct (read_all N l) as [l1| | |]; cbn [bind]; try (now left). destruct (read_all N u) as [u1| | |]; cbn [bind]; try (now left).
  unfold for_. match goal with |- lec (bind ?X _) (bind ?Y _) => assert (H : lec X Y) by exact (loop_lec it buffer l1 u1 (Z.to_nat (zlen buffer - 0)) 0 (nzero N, nzero N, t, w, b) c);
    destruct H as [E1|E1]; [|rewrite E1; now right]; destruct X as [[((((? & ?) & t') & w') & b') c']| | |]; rewrite <- E1; cbn [er bind]; now left end.
Qed.
Lemma chunk_fit it buffer t w b c : 0 <= it -> zlen buffer <= 536870912 -> it * width + Z.max 0 (zlen buffer - (m - 1)) <= int_max -> upto (it * width) c ->
  fit (chunk32 N qy epoch m r it buffer t w b c) (chunk N qy m r (it * width) buffer t w b) (upto (it * width + Z.max 0 (zlen buffer - (m - 1)))).
Proof.
  intros Hit Hb Hmax U. unfold chunk32, chunk. rewrite lemire_same by (unfold near, short, zlen in *; lia).
  destruct (lower_upper_lemire N buffer r) as [[l u]| | |]; cbn [bind]; try (split; [reflexivity|discriminate]).
  rewrite chk_in by (unfold int_min, int_max; lia). cbn [bind]. rewrite chk_in by (unfold int_min, int_max; lia). cbn [bind]. rewrite dot_ok.
  destruct (read_all N l) as [l1| | |]; cbn [bind]; try (split; [reflexivity|discriminate]). destruct (read_all N u) as [u1| | |]; cbn [bind]; try (split; [reflexivity|discriminate]).
  unfold for_. assert (Hz : Z.of_nat (Z.to_nat (zlen buffer - 0)) = zlen buffer) by (unfold zlen; lia).
  match goal with |- fit (bind ?X _) (bind ?Y _) _ => assert (H : fit X Y (upto (it * width + Z.max 0 (0 + Z.of_nat (Z.to_nat (zlen buffer - 0)) - (m - 1)))))
    by (refine (loop_fit it buffer l1 u1 (Z.to_nat (zlen buffer - 0)) 0 (nzero N, nzero N, t, w, b) c Hit _ _); [rewrite Hz; lia|eapply upto_le; eauto; lia]);
    rewrite Hz in H; destruct H as (E1 & Hc); destruct X as [[((((? & ?) & t') & w') & b') c']| | |]; rewrite <- E1; cbn [er bind]; try (split; [reflexivity|discriminate]) end.
  split; [reflexivity|]. intros ? ? [= <- <-]. eapply upto_le; [eapply Hc; reflexivity|]. lia.
Qed.

Lemma read_n_len n : forall f d l f' d', read_n N n f d = Ok (l, f', d') -> zlen l <= Z.of_nat n.
Proof.
  induction n as [|n IH]; intros f d l f' d'; cbn [read_n].
  - intros [= <- _ _]. unfold zlen. cbn. lia.
  - destruct (scan N f d) as [[[x|] f1]|]; [|discriminate|intros [= <- _ _]; unfold zlen; cbn; lia].
    destruct (read_n N n f1 (Some x)) as [[[l1 f2] d2]| | |] eqn:E; cbn [bind]; try discriminate. intros [= <- _ _]. apply IH in E. unfold zlen in *. cbn [length]. lia.
Qed.
Lemma zslice_le {A} (l : list A) s n : 0 <= n -> zlen (zslice l s n) <= n.
Proof. intros. unfold zslice, zlen. rewrite firstn_length. lia. Qed.

(** The search ends after at least the points of the chunks so far. *)
Lemma scanned_ge fuel : forall it f d buffer t w b fo, chunks N fuel epoch qy m r it f d buffer t w b = Ok fo -> it * width + (m - 1) <= fo_scanned N fo.
Proof.
  induction fuel as [|fuel IH]; intros it f d buffer t w b fo; cbn [chunks]; [discriminate|].
  destruct (if it =? 0 then _ else _) as [[[hd f1] d1]| | |]; cbn [bind]; try discriminate. destruct (epoch <? zlen hd); [discriminate|].
  destruct (read_n N _ f1 d1) as [[[tl f2] d2]| | |]; cbn [bind]; try discriminate.
  assert (0 <= zlen tl) by (unfold zlen; lia).
  destruct (Z.eqb_spec (zlen tl) 0); [intros [= <-]; cbn; lia|].
  destruct (chunk N qy m r _ _ t w b) as [[[t' w'] b']| | |]; cbn [bind]; try discriminate.
  destruct (Z.ltb_spec (m - 1 + zlen tl) epoch); [intros [= <-]; cbn; lia|]. intros E. apply IH in E. nia.
Qed.

Lemma scanned_cases it ep b c : scanned32 N epoch m it ep b c = (p <- chk (it * width);; s <- chk (p + ep);; Ok (mkFound N (b_loc N b) (b_bsf N b) s, c)).
Proof. unfold scanned32. now rewrite base_cases. Qed.

(** A read that stops early has reached the end: the next one reads nothing. *)
Lemma read_n_end n : forall f d l f' d', read_n N n f d = Ok (l, f', d') -> zlen l < Z.of_nat n -> forall k, read_n N k f' d' = Ok ([], f', d').
Proof.
  induction n as [|n IH]; intros f d l f' d'; cbn [read_n].
  - intros [= <- _ _]. unfold zlen. cbn. lia.
  - destruct (scan N f d) as [[[x|] f1]|] eqn:Es; [|discriminate|].
    + destruct (read_n N n f1 (Some x)) as [[[l1 f2] d2]| | |] eqn:E; cbn [bind]; try discriminate. intros [= <- <- <-] H k. apply (IH _ _ _ _ _ E). unfold zlen in *. cbn [length] in H. lia.
    + intros [= <- <- <-] _ k. destruct k; cbn [read_n]; [reflexivity|]. now rewrite Es.
Qed.

Lemma chunks_fit fuel : forall it f d buffer t w b c fo, 0 <= it -> upto (it * width) c -> (0 < it -> zlen buffer = epoch) ->
  chunks N fuel epoch qy m r it f d buffer t w b = Ok fo -> fo_scanned N fo <= int_max ->
  exists c', chunks32 N fuel epoch qy m r it f d buffer t w b c = Ok (fo, c') /\ upto (fo_scanned N fo - (m - 1)) c'.
Proof.
  induction fuel as [|fuel IH]; intros it f d buffer t w b c fo Hit U Hbuf E Hs; [discriminate|].
  pose proof (scanned_ge _ _ _ _ _ _ _ _ _ E) as Hge. cbn [chunks chunks32] in *.
  assert (Hhd : forall x, (if it =? 0 then read_n N (Z.to_nat (m - 1)) f d else Ok (zslice buffer width (m - 1), f, d)) = Ok x ->
     zlen (fst (fst x)) <= m - 1 /\ (zlen (fst (fst x)) < m - 1 -> forall k, read_n N k (snd (fst x)) (snd x) = Ok ([], snd (fst x), snd x))).
  { intros [[hd f1] d1]. cbn [fst snd]. destruct (Z.eqb_spec it 0).
    - intros H. pose proof (read_n_len _ _ _ _ _ _ H). split; [lia|]. intros Hlt. apply (read_n_end _ _ _ _ _ _ H). lia.
    - intros [= <- _ _]. specialize (Hbuf ltac:(lia)). enough (zlen (zslice buffer width (m - 1)) = m - 1) by (split; lia).
      unfold zslice, zlen in *. rewrite firstn_length, skipn_length. lia. }
  destruct (if it =? 0 then _ else _) as [[[hd f1] d1]| | |]; cbn [bind] in *; try discriminate. specialize (Hhd _ eq_refl). cbn [fst snd] in Hhd. destruct Hhd as (Hhd & Hend0).
  destruct (Z.ltb_spec epoch (zlen hd)); [discriminate|].
  destruct (read_n N _ f1 d1) as [[[tl f2] d2]| | |] eqn:Etl; cbn [bind] in *; try discriminate. pose proof (read_n_len _ _ _ _ _ _ Etl) as Ltl.
  assert (Htl : 0 <= zlen tl) by (unfold zlen; lia).
  assert (FIN : forall b c, upto (it * width + zlen tl) c -> fo = mkFound N (b_loc N b) (b_bsf N b) (it * width + (m - 1 + zlen tl)) ->
    exists c', scanned32 N epoch m it (m - 1 + zlen tl) b c = Ok (fo, c') /\ upto (fo_scanned N fo - (m - 1)) c').
  { intros b0 c0 U0 ->. exists c0. cbn [fo_scanned] in *. rewrite scanned_cases, chk_in by (unfold int_min; nia). cbn [bind]. rewrite chk_in by (unfold int_min; nia).
    split; [reflexivity|]. eapply upto_le; eauto. lia. }
  destruct (Z.eqb_spec (zlen tl) 0); [injection E as <-; apply FIN; auto; eapply upto_le; eauto; lia|].
  assert (Lhd : zlen hd = m - 1).
  { destruct (Z.eq_dec (zlen hd) (m - 1)); auto. rewrite Hend0 in Etl by lia. injection Etl as <- _ _. unfold zlen in *. cbn in *. lia. }
  assert (Lb : zlen (hd ++ tl) = zlen hd + zlen tl) by (unfold zlen; rewrite app_length; lia).
  assert (Hend : it * width + zlen tl <= int_max).
  { destruct (chunk N qy m r _ _ t w b) as [[[t' w'] b']| | |]; cbn [bind] in E; try discriminate.
    destruct (Z.ltb_spec (m - 1 + zlen tl) epoch); [injection E as <-; cbn [fo_scanned] in Hs; lia|]. apply scanned_ge in E. nia. }
  destruct (chunk_fit it (hd ++ tl) t w b c Hit ltac:(lia) ltac:(lia) U) as (Ec & Hc).
  destruct (chunk32 N qy epoch m r it (hd ++ tl) t w b c) as [[[[t' w'] b'] c']| | |]; rewrite <- Ec in E; cbn [er bind] in *; try discriminate.
  specialize (Hc _ _ eq_refl). rewrite Lb, Lhd in Hc. destruct (Z.ltb_spec (m - 1 + zlen tl) epoch); [injection E as <-; apply FIN; auto; eapply upto_le; eauto; lia|].
  pose proof (scanned_ge _ _ _ _ _ _ _ _ _ E) as Hge'. rewrite chk_in by (unfold int_min; nia). cbn [bind]. apply IH; auto; try lia. eapply upto_le; eauto. nia.
Qed.

Lemma chunks_le fuel : forall it f d buffer t w b c, lec (chunks32 N fuel epoch qy m r it f d buffer t w b c) (chunks N fuel epoch qy m r it f d buffer t w b).
Proof.
  induction fuel as [|fuel IH]; intros it f d buffer t w b c; cbn [chunks chunks32]; [now left|].
  destruct (if it =? 0 then _ else _) as [[[hd f1] d1]| | |]; cbn [bind]; try (now left). destruct (epoch <? zlen hd); [now left|].
  destruct (read_n N _ f1 d1) as [[[tl f2] d2]| | |]; cbn [bind]; try (now left).
  assert (FIN : forall b c, lec (scanned32 N epoch m it (m - 1 + zlen tl) b c) (Ok (mkFound N (b_loc N b) (b_bsf N b) (it * width + (m - 1 + zlen tl))))).
  { intros b0 c0. rewrite scanned_cases. unfold chk. destruct (_ && _); cbn [bind]; [|now right]. destruct (_ && _); cbn [bind]; [now left|now right]. }
  destruct (zlen tl =? 0); [apply FIN|].
  destruct (chunk_lec it (hd ++ tl) t w b c) as [E|E]; [|rewrite E; now right].
  destruct (chunk32 N qy epoch m r it (hd ++ tl) t w b c) as [[[[t' w'] b'] c']| | |]; rewrite <- E; cbn [er bind]; try (now left).
  destruct (m - 1 + zlen tl <? epoch); [apply FIN|]. unfold chk. destruct (_ && _); cbn [bind]; [apply IH|now right].
Qed.
Lemma chunks32_scanned fuel : forall it f d buffer t w b c fo c', chunks32 N fuel epoch qy m r it f d buffer t w b c = Ok (fo, c') -> fo_scanned N fo <= int_max.
Proof.
  induction fuel as [|fuel IH]; intros it f d buffer t w b c fo c0; cbn [chunks32]; [discriminate|].
  destruct (if it =? 0 then _ else _) as [[[hd f1] d1]| | |]; cbn [bind]; try discriminate. destruct (epoch <? zlen hd); [discriminate|].
  destruct (read_n N _ f1 d1) as [[[tl f2] d2]| | |]; cbn [bind]; try discriminate.
  assert (FIN : forall b c, scanned32 N epoch m it (m - 1 + zlen tl) b c = Ok (fo, c0) -> fo_scanned N fo <= int_max).
  { intros b0 c1 E. rewrite scanned_cases in E. apply bind_Ok_inv in E as (p & _ & E). apply bind_Ok_inv in E as (s & Es & E). apply chk_inv in Es as (-> & ?). injection E as <-. cbn. lia. }
  destruct (zlen tl =? 0); [apply FIN|].
  destruct (chunk32 N qy epoch m r it (hd ++ tl) t w b c) as [[[[t' w'] b'] c']| | |]; cbn [bind]; try discriminate.
  destruct (m - 1 + zlen tl <? epoch); [apply FIN|]. intros E. apply bind_Ok_inv in E as (i' & _ & E). now apply IH in E.
Qed.
End Params.

Lemma prepare_le sort f m r : le32 (prepare32 N sort f m r) (prepare N sort f m r).
Proof.
  unfold prepare32, prepare. destruct (read_query N (Z.to_nat m) f None [] (nzero N) (nzero N)) as [[[[q ex] ex2] d]| | |]; cbn [bind]; try apply le32_refl.
  destruct (zlen q <? m); [apply le32_refl|]. apply le32_bind; [apply lemire_le|]. intros [l u]. apply le32_refl.
Qed.
Lemma read_query_len n : forall f d q a b q' a' b' d', read_query N n f d q a b = Ok (q', a', b', d') -> zlen q' <= zlen q + Z.of_nat n.
Proof.
  induction n as [|n IH]; intros f d q a b q' a' b' d'; cbn [read_query]; destruct (scan N f d) as [[[x|] f1]|]; try discriminate; try (intros [= <- _ _ _]; lia).
  intros E. apply IH in E. unfold zlen in *. rewrite app_length in E. cbn [length] in E. lia.
Qed.
Lemma prepare_same sort f m r : 0 <= m <= 536870912 -> - 536870912 <= r <= 536870912 -> prepare32 N sort f m r = prepare N sort f m r.
Proof.
  intros Hm Hr. unfold prepare32, prepare. destruct (read_query N (Z.to_nat m) f None [] (nzero N) (nzero N)) as [[[[q ex] ex2] d]| | |] eqn:E; cbn [bind]; auto.
  apply read_query_len in E. destruct (zlen q <? m); auto. rewrite lemire_same; auto. unfold short, zlen in *. rewrite map_length. cbn in E. lia.
Qed.

(** A search that scans at most 2^31 - 1 points is the unbounded one, and its counters add up to the windows. *)
Theorem search_counts fuel epoch sort data q m r fo : 1 <= m <= epoch -> epoch <= 1000000 -> - 536870912 <= r <= 536870912 ->
  calculate N fuel epoch sort data q m r = Ok fo -> fo_scanned N fo <= int_max ->
  exists c, search32 N fuel epoch sort data q m r = Ok (fo, c) /\ upto (fo_scanned N fo - (m - 1)) c.
Proof.
  intros Hm He Hr. unfold search32, calculate. rewrite prepare_same by lia.
  destruct (prepare N sort q m r) as [[qy d]| | |]; cbn [bind]; try discriminate. intros E L.
  eapply chunks_fit; eauto; try lia. unfold upto. cbn. lia.
Qed.
Theorem search_lec fuel epoch sort data q m r : 1 <= m <= epoch -> epoch <= 1000000 ->
  lec (search32 N fuel epoch sort data q m r) (calculate N fuel epoch sort data q m r).
Proof.
  intros Hm He. unfold search32, calculate. destruct (prepare_le sort q m r) as [E|E]; [|rewrite E; now right]. rewrite E.
  destruct (prepare N sort q m r) as [[qy d]| | |]; cbn [bind]; try (now left). now apply chunks_le.
Qed.
Theorem search_le fuel epoch sort data q m r : 1 <= m <= epoch -> epoch <= 1000000 ->
  le32 (calculate32 N fuel epoch sort data q m r) (calculate N fuel epoch sort data q m r).
Proof.
  intros Hm He. unfold calculate32. destruct (search_lec fuel epoch sort data q m r Hm He) as [E|E].
  - rewrite <- E. apply le32_refl.
  - rewrite E. now right.
Qed.
Lemma search32_scanned fuel epoch sort data q m r fo c : 1 <= m <= epoch -> epoch <= 1000000 -> search32 N fuel epoch sort data q m r = Ok (fo, c) -> fo_scanned N fo <= int_max.
Proof.
  intros Hm He E. unfold search32 in E. apply bind_Ok_inv in E as ([qy d] & _ & E). now apply chunks32_scanned in E.
Qed.
(** One that would scan more overflows. *)
Theorem search_fit fuel epoch sort data q m r fo : 1 <= m <= epoch -> epoch <= 1000000 -> - 536870912 <= r <= 536870912 ->
  calculate N fuel epoch sort data q m r = Ok fo ->
  calculate32 N fuel epoch sort data q m r = if fo_scanned N fo <=? int_max then Ok fo else UB IntOverflow.
Proof.
  intros Hm He Hr E. unfold calculate32. destruct (Z.leb_spec (fo_scanned N fo) int_max) as [L|L].
  - destruct (search_counts fuel epoch sort data q m r fo) as (c & -> & _); auto.
  - destruct (search_lec fuel epoch sort data q m r Hm He) as [X|X]; [|now rewrite X].
    rewrite E in X. apply er_inv in X as (c & X). apply search32_scanned in X; auto. lia.
Qed.
End Search32Proofs.
