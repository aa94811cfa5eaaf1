(** * Grouping and matching depend only on values: a relation between two sessions that may keep the
    same values in different buffers, with different caches. *)
From Coq Require Import ZArith Bool Lia String List.
From Verif Require Import Outcome Num Lemire Distance TimeSeries Text Dataset Groups TsProofs GroupProofs SimProofs.
Import ListNotations.
Open Scope Z_scope.

(** ** Related outcomes: related values, or the same failure. *)
Definition orel {A B} (R : A -> B -> Prop) (x : outcome A) (y : outcome B) : Prop :=
  match x, y with
  | Ok a, Ok b => R a b
  | Throw e, Throw e' => e = e'
  | UB u, UB u' => u = u'
  | NoFuel, NoFuel => True
  | _, _ => False
  end.
Lemma orel_bind {A A' B B'} (R : A -> A' -> Prop) (Q : B -> B' -> Prop) o o' k k' :
  orel R o o' -> (forall a a', R a a' -> orel Q (k a) (k' a')) -> orel Q (bind o k) (bind o' k').
Proof. destruct o, o'; cbn; try contradiction; auto. Qed.
Lemma orel_eq {A} (o : outcome A) : orel eq o o.
Proof. destruct o; cbn; auto. Qed.
Lemma orel_same {A B B'} (Q : B -> B' -> Prop) (o : outcome A) k k' :
  (forall a, orel Q (k a) (k' a)) -> orel Q (bind o k) (bind o k').
Proof. intros H. eapply orel_bind; [apply orel_eq|]. now intros a ? <-. Qed.
Lemma orel_conseq {A B} (R Q : A -> B -> Prop) o o' : orel R o o' -> (forall a b, R a b -> Q a b) -> orel Q o o'.
Proof. destruct o, o'; cbn; auto. Qed.
Lemma orel_refl {A} (R : A -> A -> Prop) (HR : forall a, R a a) o : orel R o o.
Proof. destruct o; cbn; auto. Qed.
Lemma orel_for {S S'} (R : S -> S' -> Prop) lo hi body body' s s' : R s s' ->
  (forall i t t', R t t' -> orel R (body i t) (body' i t')) -> orel R (for_ lo hi body s) (for_ lo hi body' s').
Proof.
  intros H Hb. unfold for_.
  assert (G : forall n i s s', R s s' -> orel R (loop n i body s) (loop n i body' s')); [|now apply G].
  clear s s' H. induction n as [|n IH]; intros i s s' H; cbn [loop]; auto.
  eapply orel_bind; [apply Hb, H|]. intros t t' Ht. now apply IH.
Qed.
Lemma orel_for_each {A S S'} (R : S -> S' -> Prop) (l : list A) body body' : forall s s', R s s' ->
  (forall x t t', R t t' -> orel R (body x t) (body' x t')) -> orel R (for_each l body s) (for_each l body' s').
Proof.
  induction l as [|x l IH]; intros s s' H Hb; cbn [for_each]; auto. eapply orel_bind; [apply Hb, H|]. intros t t' Ht. now apply IH.
Qed.
Lemma orel_while {S S'} (R : S -> S' -> Prop) n cond cond' body body' : forall s s', R s s' ->
  (forall t t', R t t' -> orel eq (cond t) (cond' t')) -> (forall t t', R t t' -> orel R (body t) (body' t')) ->
  orel R (while_ n cond body s) (while_ n cond' body' s').
Proof.
  induction n as [|n IH]; intros s s' H Hc Hb; cbn [while_]; (eapply orel_bind; [apply Hc, H|]); intros b ? <-; destruct b; try (cbn; auto; fail).
  eapply orel_bind; [apply Hb, H|]. intros t t' Ht. now apply IH.
Qed.
Lemma orel_zget {A B} (R : A -> B -> Prop) l l' i : Forall2 R l l' -> orel R (zget l i) (zget l' i).
Proof.
  intros H. unfold zget. destruct (i <? 0); cbn; auto. generalize (Z.to_nat i). induction H; intros [|n]; cbn; auto.
Qed.
Lemma orel_zset {A B} (R : A -> B -> Prop) l l' i x x' : Forall2 R l l' -> R x x' -> orel (Forall2 R) (zset l i x) (zset l' i x').
Proof.
  intros H Hx. unfold zset. rewrite (Forall2_zlen _ _ _ H). destruct (_ || _); cbn; auto.
  generalize (Z.to_nat i). induction H; intros [|n]; cbn; auto.
Qed.

Section Indep.
Context (N : NumOps) (h h' : heap N).
Local Notation T := (num N).

(** The same values; the caches may differ but are right. *)
Definition vrel (t t' : ts N) : Prop :=
  ts_len t = ts_len t' /\ ts_read N h t = ts_read N h' t' /\ cache_ok N h t /\ cache_ok N h' t'.
(** ... at the same position. *)
Definition trel (t t' : ts N) : Prop :=
  vrel t t' /\ ts_index t = ts_index t' /\ ts_start t = ts_start t' /\ ts_end t = ts_end t'.

Lemma envelope_rel t t' band : vrel t t' ->
  orel (fun x y => vrel (fst x) (fst y) /\ snd x = snd y) (ts_envelope N h t band) (ts_envelope N h' t' band).
Proof.
  intros (A & B & C & D).
  set (regen := fun h t => v <- ts_read N h t ;; '(l, u) <- generateKeoghLU N v band ;;
      Ok (mkTS (ts_src t) (ts_index t) (ts_start t) (ts_end t) (ts_len t) (Some (mkCache band l u)), (l, u))).
  assert (G : orel (fun x y => vrel (fst x) (fst y) /\ snd x = snd y) (regen h t) (regen h' t')).
  { unfold regen. rewrite <- B. destruct (ts_read N h t) as [v| | |] eqn:E; cbn [bind orel]; auto.
    destruct (generateKeoghLU N v band) as [(l & u)| | |] eqn:El; cbn [bind orel]; auto. cbn [fst snd].
    split; auto. split; [exact A|]. unfold cache_ok, ts_read in *. cbn. rewrite E, <- B.
    split; [reflexivity|]. split; exists v; auto. }
  assert (K : forall h t v c, ts_read N h t = Ok v -> ts_cache t = Some c -> kc_band c = band ->
     generateKeoghLU N v (kc_band c) = Ok (kc_lower c, kc_upper c) ->
     orel (fun x y => vrel (fst x) (fst y) /\ snd x = snd y) (regen h t) (Ok (t, (kc_lower c, kc_upper c))) -> True) by auto.
  clear K. unfold ts_envelope. fold (regen h t) (regen h' t').
  destruct (ts_cache t) as [c|] eqn:Ec; [destruct (Z.eqb_spec (kc_band c) band) as [Eb|]|];
  (destruct (ts_cache t') as [c'|] eqn:Ec'; [destruct (Z.eqb_spec (kc_band c') band) as [Eb'|]|]); auto.
  - cbn. pose proof C as C0. pose proof D as D0. unfold cache_ok in C0, D0. rewrite Ec in C0. rewrite Ec' in D0.
    destruct C0 as (v & R1 & E1), D0 as (v' & R2 & E2). assert (v = v') as <- by congruence.
    rewrite Eb in E1. rewrite Eb' in E2. split; [repeat split; auto|]. congruence.
  - pose proof C as C0. unfold cache_ok in C0. rewrite Ec in C0. destruct C0 as (v & R1 & E1). rewrite Eb in E1.
    unfold regen. rewrite <- B, R1. cbn [bind]. rewrite E1. cbn [bind orel fst snd]. split; auto.
    split; [exact A|]. split; [exact B|]. split; auto. unfold cache_ok. cbn. exists v. split; [|auto]. unfold ts_read in *. cbn. congruence.
  - pose proof C as C0. unfold cache_ok in C0. rewrite Ec in C0. destruct C0 as (v & R1 & E1). rewrite Eb in E1.
    unfold regen. rewrite <- B, R1. cbn [bind]. rewrite E1. cbn [bind orel fst snd]. split; auto.
    split; [exact A|]. split; [exact B|]. split; auto. unfold cache_ok. cbn. exists v. split; [|auto]. unfold ts_read in *. cbn. congruence.
  - pose proof D as D0. unfold cache_ok in D0. rewrite Ec' in D0. destruct D0 as (v & R1 & E1). rewrite Eb' in E1.
    unfold regen. rewrite B, R1. cbn [bind]. rewrite E1. cbn [bind orel fst snd]. split; auto.
    split; [exact A|]. split; [exact B|]. split; auto. unfold cache_ok. cbn. exists v. split; [|auto]. unfold ts_read in *. cbn. congruence.
  - pose proof D as D0. unfold cache_ok in D0. rewrite Ec' in D0. destruct D0 as (v & R1 & E1). rewrite Eb' in E1.
    unfold regen. rewrite B, R1. cbn [bind]. rewrite E1. cbn [bind orel fst snd]. split; auto.
    split; [exact A|]. split; [exact B|]. split; auto. unfold cache_ok. cbn. exists v. split; [|auto]. unfold ts_read in *. cbn. congruence.
Qed.
Lemma keogh_rel ratio a a' b b' d : vrel a a' -> vrel b b' ->
  orel (fun x y => vrel (fst x) (fst y) /\ snd x = snd y) (keogh_ts N h ratio a b d) (keogh_ts N h' ratio a' b' d).
Proof.
  intros Ha Hb. unfold keogh_ts. destruct Hb as (B1 & B2 & _). pose proof Ha as (A1 & _). rewrite <- A1, <- B1.
  apply orel_same. intros w. eapply orel_bind; [apply envelope_rel, Ha|].
  intros (a1 & (l & u)) (a1' & p') (H1 & H2). cbn [fst snd] in *. subst p'. rewrite <- B2. apply orel_same. intros bv.
  replace (ts_len a1') with (ts_len a1) by apply H1. apply orel_same. intros x. cbn. auto.
Qed.
Lemma cross_rel ratio a a' b b' d : vrel a a' -> vrel b b' ->
  orel (fun x y => vrel (fst (fst x)) (fst (fst y)) /\ vrel (snd (fst x)) (snd (fst y)) /\ snd x = snd y)
    (crossKeogh_ts N h ratio a b d) (crossKeogh_ts N h' ratio a' b' d).
Proof.
  intros Ha Hb. unfold crossKeogh_ts. eapply orel_bind; [apply keogh_rel; eauto|].
  intros (a1 & x) (a1' & x') (H1 & H2). cbn [fst snd] in *. subst x'. destruct (nltb N d x); [cbn; auto|].
  eapply orel_bind; [apply keogh_rel; eauto|]. intros (b1 & y) (b1' & y') (H3 & H4). cbn [fst snd] in *. subst y'. cbn. auto.
Qed.
Lemma cascade_rel ratio a a' b b' d : vrel a a' -> vrel b b' ->
  orel (fun x y => vrel (fst (fst x)) (fst (fst y)) /\ vrel (snd (fst x)) (snd (fst y)) /\ snd x = snd y)
    (cascade_ts N h ratio a b d) (cascade_ts N h' ratio a' b' d).
Proof.
  intros Ha Hb. unfold cascade_ts. eapply orel_bind; [apply cross_rel; eauto|].
  intros ((a1 & b1) & x) ((a1' & b1') & x') (H1 & H2 & H3). cbn [fst snd] in *. subst x'. destruct (nltb N d x); [cbn; auto|].
  destruct H1 as (P1 & P2 & P3), H2 as (Q1 & Q2 & Q3). rewrite <- P2. apply orel_same. intros av. rewrite <- Q2. apply orel_same. intros bv.
  apply orel_same. intros y. cbn. repeat split; auto; apply P3 || apply Q3.
Qed.
Lemma dist_rel k r r' a a' b b' d : k = DPairwise \/ r = r' -> ts_read N h a = ts_read N h' a' -> ts_read N h b = ts_read N h' b' ->
  dist_ts N k h r a b d = dist_ts N k h' r' a' b' d.
Proof. intros Hk Ha Hb. unfold dist_ts. rewrite Ha, Hb. destruct Hk as [->| ->]; reflexivity. Qed.

(** ** Groups. *)
Definition grel (g g' : group N) : Prop :=
  g_index N g = g_index N g' /\ g_last N g = g_last N g' /\ g_length N g = g_length N g' /\ g_sub N g = g_sub N g' /\
  g_count N g = g_count N g' /\ vrel (g_centroid N g) (g_centroid N g').
Definition lrel (l l' : lspace N) : Prop :=
  ls_length N l = ls_length N l' /\ ls_sub N l = ls_sub N l' /\ ls_map N l = ls_map N l' /\
  Forall2 grel (ls_groups N l) (ls_groups N l').
Definition lorel (o o' : option (lspace N)) : Prop :=
  match o, o' with None, None => True | Some l, Some l' => lrel l l' | _, _ => False end.
Definition gsrel (gs gs' : gspace N) : Prop :=
  gs_name N gs = gs_name N gs' /\ gs_kind N gs = gs_kind N gs' /\ Forall2 lorel (gs_spaces N gs) (gs_spaces N gs').

(** Two datasets of the same shape with the same values. *)
Definition srel (s s' : tset) : Prop :=
  set_len s = set_len s' /\ set_count s = set_count s' /\
  forall ix a e, orel trel (getTimeSeries N s ix a e) (getTimeSeries N s' ix a e).

Context (s s' : tset) (S : srel s s').

Lemma get_rel ix a e : orel trel (getTimeSeries N s ix a e) (getTimeSeries N s' ix a e).
Proof. apply S. Qed.

Lemma nearest_rel k r r' gs gs' q q' : k = DPairwise \/ r = r' -> Forall2 grel gs gs' -> vrel q q' ->
  orel eq (nearest N k h r gs q) (nearest N k h' r' gs' q').
Proof.
  intros Hk Hg (_ & Hq & _). unfold nearest. rewrite (Forall2_zlen _ _ _ Hg). apply orel_for; auto.
  intros i (best & bi) ? <-. unfold nearest_step. eapply orel_bind; [apply orel_zget, Hg|].
  intros g g' (_ & _ & _ & _ & _ & _ & Hr & _). rewrite (dist_rel k r r' _ _ _ _ best Hk Hr Hq).
  destruct (dist_ts _ _ _ _ _ _ _); cbn; auto.
Qed.
Lemma new_group_rel i L sub : orel grel (new_group N i L sub) (new_group N i L sub).
Proof.
  unfold new_group, ts_new. destruct (L <? 0); cbn; auto. repeat split.
Qed.
Lemma setCentroid_rel g g' ix st : grel g g' -> ts_cache (g_centroid N g) = None -> ts_cache (g_centroid N g') = None ->
  orel grel (setCentroid N s g ix st) (setCentroid N s' g' ix st).
Proof.
  intros (A & B & C & D & E & F) Hc Hc'. unfold setCentroid. rewrite <- C. eapply orel_bind; [apply get_rel|].
  intros t t' ((T1 & T2 & T3 & T4) & _). cbn [orel]. repeat split; cbn [g_index g_last g_length g_sub g_count g_centroid ts_assign ts_len]; auto.
  - unfold cache_ok, ts_assign. cbn. now rewrite Hc.
  - unfold cache_ok, ts_assign. cbn. now rewrite Hc'.
Qed.
Lemma addMember_rel m g g' ix st : grel g g' ->
  orel (fun x y => fst x = fst y /\ grel (snd x) (snd y)) (addMember N m g ix st) (addMember N m g' ix st).
Proof.
  intros (A & B & C & D & E & F). unfold addMember. rewrite <- A, <- B, <- D. apply orel_same. intros m1. cbn [orel fst snd].
  split; auto. repeat split; cbn [g_index g_last g_length g_sub g_count g_centroid]; auto; try apply F. congruence.
Qed.
Lemma insert_rel k r r' thr st ix l l' : k = DPairwise \/ r = r' -> lrel l l' ->
  orel lrel (insert_one N k h r s thr st ix l) (insert_one N k h' r' s' thr st ix l').
Proof.
  intros Hk (A & B & C & D). unfold insert_one. rewrite <- A. eapply orel_bind; [apply get_rel|].
  intros q q' Hq. eapply orel_bind; [apply nearest_rel; eauto; apply Hq|]. intros (best & bi) ? <-.
  rewrite <- (Forall2_zlen _ _ _ D).
  eapply (orel_bind (fun x y => Forall2 grel (fst x) (fst y) /\ snd x = snd y)).
  - destruct (_ || _); [|cbn; auto]. rewrite <- B. 
    eapply (orel_bind (fun g g' => grel g g' /\ ts_cache (g_centroid N g) = None /\ ts_cache (g_centroid N g') = None)).
    + unfold new_group, ts_new. destruct (ls_length N l <? 0); cbn; auto. repeat split.
    + intros g g' (Hg & N1 & N2). eapply orel_bind; [apply setCentroid_rel; eauto|]. intros g1 g1' Hg1. cbn. split; auto.
      apply Forall2_app; auto.
  - intros (gr & b1) (gr' & b1') (Hgr & Eb). cbn [fst snd] in *. subst b1'. apply orel_same. intros b2.
    eapply orel_bind; [apply orel_zget, Hgr|]. intros g g' Hg. rewrite <- C.
    eapply orel_bind; [apply addMember_rel, Hg|]. intros (m1 & g1) (m1' & g1') (Em & Hg1). cbn [fst snd] in *. subst m1'.
    eapply orel_bind; [apply orel_zset; eauto|]. intros gr1 gr1' H1. cbn [orel]. repeat split; auto.
Qed.
Lemma generate_rel k r r' thr log l l' : k = DPairwise \/ r = r' -> lrel l l' ->
  orel lrel (generateGroups N k h r s thr log l) (generateGroups N k h' r' s' thr log l').
Proof.
  intros Hk H. unfold generateGroups. pose proof H as (A & B & C & D). destruct S as (S1 & S2 & _). rewrite <- B, <- S2.
  eapply (orel_bind (fun x y => lrel (fst x) (fst y) /\ snd x = snd y)).
  - apply orel_for; [cbn; auto|]. intros st (x & c) (x' & c') (H1 & H2). cbn [fst snd] in H1, H2. subst c'.
    apply orel_for; [cbn; auto|]. intros ix (y & e) (y' & e') (H3 & H4). cbn [fst snd] in H3, H4. subst e'.
    apply orel_same. intros _. eapply orel_bind; [apply insert_rel; eauto|]. intros z z' Hz. cbn. auto.
  - intros (x & c) (x' & c') (H1 & H2). cbn in *. auto.
Qed.
Lemma group_rel name r r' thr clock : getDistance name = Ok DPairwise \/ r = r' ->
  orel (fun x y => gsrel (fst x) (fst y) /\ snd x = snd y)
    (global_group N h r s name thr clock) (global_group N h' r' s' name thr clock).
Proof.
  intros Hk. unfold global_group. destruct S as (S1 & S2 & _). rewrite <- S1.
  destruct (getDistance name) as [k| | |] eqn:Ek; cbn [bind orel]; auto.
  assert (Hk' : k = DPairwise \/ r = r') by (destruct Hk as [Hk|]; auto; injection Hk as ->; auto).
  unfold resize_null. destruct (set_len s + 1 <? 0); cbn [bind orel]; auto.
  assert (Hsp : Forall2 lorel (zrepeat None (set_len s + 1)) (zrepeat None (set_len s + 1))).
  { unfold zrepeat. induction (Z.to_nat (set_len s + 1)); cbn; constructor; cbn; auto. }
  revert Hsp. generalize (zrepeat (A := option (lspace N)) None (set_len s + 1)). intros sp Hsp.
  eapply (orel_bind (fun x y => Forall2 lorel (fst x) (fst y) /\ snd x = snd y)).
  - apply orel_for; [cbn; auto|]. intros i (x & c) (x' & c') (H1 & H2). cbn [fst snd] in H1, H2. subst c'.
    unfold new_lspace. rewrite <- S1, <- S2. destruct (_ <? 0); cbn [bind orel]; auto.
    eapply orel_bind; [apply generate_rel; eauto|].
    + repeat split. constructor.
    + intros l l' Hl. eapply orel_bind; [apply orel_zset; [exact H1|exact Hl]|]. intros y y' Hy. cbn. split; auto. f_equal.
      unfold getNumberOfGroups. apply (Forall2_zlen _ _ _ (proj2 (proj2 (proj2 Hl)))).
  - intros (x & c) (x' & c') (H1 & H2). cbn in *. split; auto. repeat split. exact H1.
Qed.

(** ** Matches. *)
Lemma prev_rel m sub c : orel eq (prev_of m sub c) (prev_of m sub c).
Proof. apply orel_eq. Qed.
Lemma getBestGroup_rel r l l' q q' d : lrel l l' -> vrel q q' ->
  orel (fun x y => lrel (fst (fst (fst x))) (fst (fst (fst y))) /\ vrel (snd (fst (fst x))) (snd (fst (fst y))) /\
                   snd (fst x) = snd (fst y) /\ snd x = snd y)
    (getBestGroup N h r l q d) (getBestGroup N h' r l' q' d).
Proof.
  intros (A & B & C & D) Hq. unfold getBestGroup. rewrite <- (Forall2_zlen _ _ _ D).
  eapply (orel_bind (fun x y : bg_state N => Forall2 grel (fst (fst (fst x))) (fst (fst (fst y))) /\ vrel (snd (fst (fst x))) (snd (fst (fst y))) /\
                   snd (fst x) = snd (fst y) /\ snd x = snd y)).
  - apply orel_for; [cbn; auto|]. intros i (((g & q1) & b) & bi) (((g' & q1') & b') & bi') (H1 & H2 & H3 & H4). cbn [fst snd] in *. subst b' bi'.
    unfold best_group_step. eapply orel_bind; [apply orel_zget, H1|]. intros x x' Hx.
    eapply orel_bind; [apply cascade_rel; [apply Hx|exact H2]|]. intros ((c & q2) & d2) ((c' & q2') & d2') (K1 & K2 & K3). cbn [fst snd] in *. subst d2'.
    eapply orel_bind; [apply orel_zset; [exact H1|]|].
    + destruct Hx as (X1 & X2 & X3 & X4 & X5 & _). exact (conj X1 (conj X2 (conj X3 (conj X4 (conj X5 K1))))).
    + intros g2 g2' Hg2. destruct (nltb N d2 b); cbn; auto.
  - intros (((g & q1) & b) & bi) (((g' & q1') & b') & bi') (H1 & H2 & H3 & H4). cbn [fst snd orel] in *. subst b' bi'.
    split; [|auto]. repeat split; auto.
Qed.
Definition crel (c c' : candidate N) : Prop := trel (cand_data c) (cand_data c') /\ cand_dist c = cand_dist c'.
Lemma group_match_rel r m g g' q q' : grel g g' -> vrel q q' ->
  orel crel (group_getBestMatch N h r s m g q) (group_getBestMatch N h' r s' m g' q').
Proof.
  intros (A & B & C & D & E & F) Hq. unfold group_getBestMatch. rewrite <- B.
  eapply (orel_bind (fun x y : match_state N => fst (fst (fst x)) = fst (fst (fst y)) /\ snd (fst (fst x)) = snd (fst (fst y)) /\
                   snd (fst x) = snd (fst y) /\ vrel (snd x) (snd y))).
  - apply orel_while; [cbn; auto| |].
    + intros (((c & b) & bm) & q1) (((c' & b') & bm') & q1') (H1 & _). cbn [fst snd] in *. subst c'. apply orel_eq.
    + intros (((c & b) & bm) & q1) (((c' & b') & bm') & q1') (H1 & H2 & H3 & H4). cbn [fst snd] in *. subst c' b' bm'.
      unfold group_match_body. rewrite <- C, <- D. eapply orel_bind; [apply get_rel|]. intros t t' Ht.
      eapply orel_bind; [apply cascade_rel; [exact H4|apply Ht]|]. intros ((q2 & t2) & d2) ((q2' & t2') & d2') (K1 & K2 & K3). cbn [fst snd] in *. subst d2'.
      destruct (nltb N d2 b); apply orel_same; intros c1; cbn; auto.
  - intros (((c & b) & bm) & q1) (((c' & b') & bm') & q1') (H1 & H2 & H3 & H4). cbn [fst snd] in *. subst c' b' bm'. rewrite <- C.
    eapply orel_bind; [apply get_rel|]. intros t t' ((T1 & T2 & T3 & T4) & T5 & T6 & T7). cbn. repeat split; auto.
Qed.
Lemma match_rel r gs gs' q q' : gsrel gs gs' -> vrel q q' ->
  orel (fun x y => gsrel (fst x) (fst y) /\ crel (snd x) (snd y))
    (global_getBestMatch N h r s gs q) (global_getBestMatch N h' r s' gs' q').
Proof.
  intros (A & B & C) Hq. unfold global_getBestMatch. pose proof Hq as (Q1 & _). rewrite <- Q1, <- (Forall2_zlen _ _ _ C).
  destruct (_ <=? 1); [reflexivity|]. apply orel_same. intros order.
  eapply (orel_bind (fun x y : gm_state N => Forall2 lorel (fst (fst (fst x))) (fst (fst (fst y))) /\ vrel (snd (fst (fst x))) (snd (fst (fst y))) /\
                   snd (fst x) = snd (fst y) /\ snd x = snd y)).
  - apply orel_for_each; [cbn; auto|]. intros i (((sp & q1) & b) & bg) (((sp' & q1') & b') & bg') (H1 & H2 & H3 & H4). cbn [fst snd] in *. subst b' bg'.
    unfold global_match_step. eapply orel_bind; [apply orel_zget, H1|]. intros o o' Ho. destruct o as [l|], o' as [l'|]; try destruct Ho; [|reflexivity].
    eapply orel_bind; [apply getBestGroup_rel; [split; eauto|exact H2]|].
    intros (((l2 & q2) & gi) & d2) (((l2' & q2') & gi') & d2') (K1 & K2 & K3 & K4). cbn [fst snd] in *. subst gi' d2'.
    eapply orel_bind; [apply orel_zset; [exact H1|exact K1]|]. intros sp2 sp2' Hs2. destruct (nltb N d2 b); cbn; auto.
  - intros (((sp & q1) & b) & bg) (((sp' & q1') & b') & bg') (H1 & H2 & H3 & H4). cbn [fst snd] in *. subst b' bg'.
    destruct bg as [(l & gi)|]; [|reflexivity]. eapply orel_bind; [apply orel_zget, H1|].
    intros o o' Ho. destruct o as [x|], o' as [x'|]; try destruct Ho as (L1 & L2 & L3 & L4); try destruct Ho; [|reflexivity].
    eapply orel_bind; [apply orel_zget, L4|]. intros g g' Hg. rewrite <- L3.
    eapply orel_bind; [apply group_match_rel; eauto|]. intros c c' Hc. cbn. repeat split; auto; apply Hc.
Qed.

(** ** Members, as the methods show them. *)
Lemma members_rel m g g' : grel g g' -> orel (Forall2 trel) (getMembers N s m g) (getMembers N s' m g').
Proof.
  intros (A & B & C & D & E & F). unfold getMembers. rewrite <- B.
  eapply (orel_bind (fun x y : coord * list (ts N) => fst x = fst y /\ Forall2 trel (snd x) (snd y))).
  - apply orel_while; [cbn; auto| |].
    + intros (c & l) (c' & l') (H1 & _). cbn in *. now subst.
    + intros (c & l) (c' & l') (H1 & H2). cbn [fst snd] in *. subst c'. rewrite <- C, <- D. eapply orel_bind; [apply get_rel|].
      intros t t' ((T1 & T2 & T3 & T4) & T5 & T6 & T7). apply orel_same. intros c1. cbn. split; auto. apply Forall2_app; auto. constructor; auto.
      repeat split; auto.
  - intros (c & l) (c' & l') (H1 & H2). cbn in *. auto.
Qed.
End Indep.
