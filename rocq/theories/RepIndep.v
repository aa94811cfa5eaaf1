(** * Matching depends only on the groups: two sessions whose datasets have the same values and whose groups have the same
    representatives search the same group, and give the same answer if the groups also have the same members in the same order. *)
From Coq Require Import ZArith Bool Lia String List.
From Verif Require Import Outcome Num Lemire Distance TimeSeries Text Dataset Groups Api Laws Spec.
From Verif Require Import TsProofs GroupSpec GroupProofs GlobalGroup MatchProofs SimProofs Indep SessionProofs SessionMatch SessionIndep RepMatch LoadedMatch.
Import ListNotations.
Open Scope Z_scope.

Lemma orel_eqs {A B} (R : A -> B -> Prop) x y : orel R x y -> orel (fun a b => R a b /\ x = Ok a /\ y = Ok b) x y.
Proof. destruct x, y; cbn; auto. Qed.
Lemma orel_for_each_in {A S S'} (R : S -> S' -> Prop) (l : list A) body body' : forall s s', R s s' ->
  (forall x t t', In x l -> R t t' -> orel R (body x t) (body' x t')) -> orel R (for_each l body s) (for_each l body' s').
Proof.
  induction l as [|x l IH]; intros s s' H Hb; cbn [for_each]; auto. eapply orel_bind; [apply Hb; [now left|exact H]|].
  intros t t' Ht. apply IH; auto. intros y u u' Hy. apply Hb. now right.
Qed.
Lemma orel_walk {S S' A} (R : list A -> S -> S' -> Prop) cond cond' (body : S -> outcome S) (body' : S' -> outcome S') : forall n n' rem s s',
  R rem s s' -> (List.length rem <= n)%nat -> (List.length rem <= n')%nat ->
  (forall t t', R [] t t' -> cond t = Ok false /\ cond' t' = Ok false) ->
  (forall rem c t t', R (rem ++ [c]) t t' -> cond t = Ok true /\ cond' t' = Ok true /\ orel (R rem) (body t) (body' t')) ->
  orel (R []) (while_ n cond body s) (while_ n' cond' body' s').
Proof.
  induction n as [|n IH]; intros n' rem s s' HI Hf Hf' H0 Hb.
  - assert (rem = []) by (destruct rem; cbn in Hf; auto; lia). subst. destruct (H0 s s' HI) as (E & E').
    destruct n'; cbn [while_]; rewrite E, E'; exact HI.
  - destruct rem as [|x rem0] eqn:E.
    + destruct (H0 s s' HI) as (E1 & E1'). destruct n'; cbn [while_]; rewrite E1, E1'; exact HI.
    + destruct (@exists_last _ rem) as (rem' & c & E'); [subst; discriminate|]. rewrite <- E in *. subst rem.
      rewrite E' in *. destruct (Hb rem' c s s' HI) as (E1 & E1' & Hp). rewrite app_length in Hf, Hf'. cbn in Hf, Hf'.
      destruct n' as [|n']; [lia|]. cbn [while_]. rewrite E1, E1'. cbn [bind].
      eapply orel_bind; [exact Hp|]. intros t t' Ht. apply (IH n' rem'); auto; lia.
Qed.
Lemma while_Ok_inv {S} (P : S -> Prop) n cond (body : S -> outcome S) : forall s s',
  while_ n cond body s = Ok s' -> P s -> (forall t t', body t = Ok t' -> P t -> P t') -> P s'.
Proof.
  induction n as [|n IH]; intros s s' E H Hb; cbn [while_] in E; apply bind_Ok_inv in E as (c & _ & E); destruct c; try discriminate; try (now injection E as <-).
  apply bind_Ok_inv in E as (t & E1 & E). eapply IH; eauto.
Qed.

Lemma while_Ok_inv_c {S} (P : S -> Prop) n cond (body : S -> outcome S) : forall s s',
  while_ n cond body s = Ok s' -> P s -> (forall t t', cond t = Ok true -> body t = Ok t' -> P t -> P t') -> P s'.
Proof.
  induction n as [|n IH]; intros s s' E H Hb; cbn [while_] in E; apply bind_Ok_inv in E as (c & Ec & E); destruct c; try discriminate; try (now injection E as <-).
  apply bind_Ok_inv in E as (t & E1 & E). eapply IH; eauto.
Qed.

Section RepIndep.
Context (N : NumOps).
Local Notation T := (num N).

(** The lengths that a match looks at are never below 2. *)
Lemma order_low ratio q n order : generateTraverseOrder N ratio q n = Ok order -> 2 <= q -> forall l, In l order -> 2 <= l.
Proof.
  unfold generateTraverseOrder. intros E Hq. apply bind_Ok_inv in E as (((((o & lo) & hi) & a) & b) & E & Eo). injection Eo as <-.
  pose proof (while_Ok_inv (fun st : to_state => let '(o, _, hi, _, _) := st in (forall l, In l o -> 2 <= l) /\ q < hi) _ _ _ _ _ E) as H.
  cbv beta iota in H. apply H; clear H.
  - split; [|lia]. intros l [<-|[]]. exact Hq.
  - intros ((((o1 & lo1) & hi1) & a1) & b1) ((((o2 & lo2) & hi2) & a2) & b2) E1 (H1 & H2). unfold traverse_body in E1.
    apply bind_Ok_inv in E1 as (((o3 & lo3) & a3) & E2 & E1). apply bind_Ok_inv in E1 as (((o4 & hi4) & b4) & E3 & E1). injection E1 as <- <- <- <- <-.
    assert (H3 : forall l, In l o3 -> 2 <= l).
    { destruct (Z.ltb_spec lo1 2) as [Hl|Hl]; [rewrite orb_true_r in E2|]; destruct a1; cbn [orb negb] in E2; try (injection E2 as <- _ _; exact H1).
      apply bind_Ok_inv in E2 as (r & _ & E2). destruct (q <=? lo1 + r); injection E2 as <- _ _; auto.
      intros l Hin. apply in_app_iff in Hin as [Hin|[<-|[]]]; auto. }
    destruct (b1 || (n <? hi1)); cbn [negb] in E3; [injection E3 as <- <- _; auto|].
    apply bind_Ok_inv in E3 as (r & _ & E3). destruct (hi1 <=? q + r); injection E3 as <- <- _; [|auto].
    split; [|lia]. intros l Hin. apply in_app_iff in Hin as [Hin|[<-|[]]]; auto. lia.
Qed.

Section Two.
Context (h h' : heap N) (s s' : tset) (b b' : nat).
Hypothesis Ss : srel N h h' s s'.
Hypothesis Hlen : set_len s <= 2 ^ 30.
Local Notation vrel := (vrel N h h').
Local Notation gl_t := (list (list T * list coord)).

Definition crep (g g' : group N) : Prop := vrel (g_centroid N g) (g_centroid N g').
Lemma lists_crep L ls ls' (gl gl' : gl_t) : lists N h s b L ls gl -> lists N h' s' b' L ls' gl' -> map fst gl = map fst gl' ->
  Forall2 crep (ls_groups N ls) (ls_groups N ls').
Proof.
  intros H H' E. assert (Z : zlen gl = zlen gl') by (apply (f_equal (@List.length _)) in E; rewrite !map_length in E; unfold zlen; lia).
  apply Forall2_zget_intro; [rewrite (lists_len _ _ _ _ _ _ _ H), (lists_len _ _ _ _ _ _ _ H'); exact Z|].
  intros i g g' Eg Eg'. assert (Hi : 0 <= i < zlen gl) by (rewrite <- (lists_len _ _ _ _ _ _ _ H); apply zget_inv in Eg; tauto).
  destruct (zget_Ok gl i Hi) as ((v & cs) & Ev). destruct (zget_Ok gl' i ltac:(lia)) as ((v' & cs') & Ev').
  pose proof (zget_map fst _ _ _ Ev) as F. pose proof (zget_map fst _ _ _ Ev') as F'. rewrite E in F. cbn [fst] in F, F'.
  assert (v = v') as <- by congruence.
  destruct (proj2 H i g v cs Eg Ev) as (R1 & R2 & R3 & _). destruct (proj2 H' i g' v cs' Eg' Ev') as (R1' & R2' & R3' & _).
  split; [congruence|]. split; [congruence|]. auto.
Qed.
Lemma getBestGroup_crep r l l' q q' d : Forall2 crep (ls_groups N l) (ls_groups N l') -> vrel q q' ->
  orel (fun x y => vrel (snd (fst (fst x))) (snd (fst (fst y))) /\ snd (fst x) = snd (fst y) /\ snd x = snd y)
    (getBestGroup N h r l q d) (getBestGroup N h' r l' q' d).
Proof.
  intros D Hq. unfold getBestGroup. rewrite <- (Forall2_zlen _ _ _ D).
  eapply (orel_bind (fun x y : bg_state N => Forall2 crep (fst (fst (fst x))) (fst (fst (fst y))) /\ vrel (snd (fst (fst x))) (snd (fst (fst y))) /\
                   snd (fst x) = snd (fst y) /\ snd x = snd y)).
  - apply orel_for; [cbn; auto|]. intros i (((g & q1) & e) & bi) (((g' & q1') & e') & bi') (H1 & H2 & H3 & H4). cbn [fst snd] in *. subst e' bi'.
    unfold best_group_step. eapply orel_bind; [apply orel_zget, H1|]. intros x x' Hx.
    eapply orel_bind; [apply cascade_rel; [apply Hx|exact H2]|]. intros ((c & q2) & d2) ((c' & q2') & d2') (K1 & K2 & K3). cbn [fst snd] in *. subst d2'.
    eapply orel_bind; [apply orel_zset; [exact H1|exact K1]|]. intros g2 g2' Hg2. destruct (nltb N d2 e); cbn; auto.
  - intros (((g & q1) & e) & bi) (((g' & q1') & e') & bi') (H1 & H2 & H3 & H4). cbn [fst snd orel] in *. auto.
Qed.

Context (gf gf' : Z -> gl_t).
Hypothesis Hreps : forall L, 2 <= L <= set_len s -> map fst (gf L) = map fst (gf' L).

Definition gmrel (st st' : gm_state N) : Prop :=
  let '(sp, q, d, o) := st in let '(sp', q', d', o') := st' in
  rspaces N h s b gf sp /\ rspaces N h' s' b' gf' sp' /\ vrel q q' /\ d = d' /\ o = o' /\
  match o with Some (l, _) => 2 <= l | None => True end.
Lemma rspaces_get sp sp' l : rspaces N h s b gf sp -> rspaces N h' s' b' gf' sp' -> 2 <= l ->
  (zget sp l = UB OutOfBounds /\ zget sp' l = UB OutOfBounds) \/
  exists ls ls', 2 <= l <= set_len s /\ zget sp l = Ok (Some ls) /\ zget sp' l = Ok (Some ls') /\ lists N h s b l ls (gf l) /\ lists N h' s' b' l ls' (gf' l).
Proof.
  intros (Z & H) (Z' & H') Hl. pose proof Ss as (E & _). destruct (Z_le_dec l (set_len s)) as [Hs|Hs].
  - right. destruct (H l ltac:(lia)) as (ls & E1 & H1). destruct (H' l ltac:(lia)) as (ls' & E1' & H1'). exists ls, ls'. auto 10.
  - left. assert (X : forall A (x : list A), zlen x = set_len s + 1 -> zget x l = UB OutOfBounds).
    { intros A x Hx. unfold zget. destruct (Z.ltb_spec l 0); [lia|]. replace (nth_error x (Z.to_nat l)) with (@None A); [reflexivity|].
      symmetry. apply nth_error_None. unfold zlen in Hx. lia. }
    split; apply X; [exact Z|congruence].
Qed.
Lemma rspaces_put h0 s0 b0 gf0 sp l ls sp2 : rspaces N h0 s0 b0 gf0 sp -> zset sp l (Some ls) = Ok sp2 -> (2 <= l <= set_len s0 -> lists N h0 s0 b0 l ls (gf0 l)) ->
  rspaces N h0 s0 b0 gf0 sp2.
Proof.
  intros (Z & H) Es Hl. split; [now rewrite (zset_len _ _ _ _ Es)|]. intros L HL. destruct (Z.eq_dec l L) as [<-|Hn].
  - rewrite (zget_zset_eq _ _ _ _ Es). eauto.
  - rewrite (zget_zset_neq _ _ _ _ _ Es) by auto. auto.
Qed.
Lemma loop_rel r order sp sp' q q' d : rspaces N h s b gf sp -> rspaces N h' s' b' gf' sp' -> vrel q q' -> (forall l, In l order -> 2 <= l) ->
  orel gmrel (for_each order (global_match_step N h r) (sp, q, d, None)) (for_each order (global_match_step N h' r) (sp', q', d, None)).
Proof.
  intros H H' Hq Ho. apply orel_for_each_in; [cbn; auto 10|].
  intros l (((sp1 & q1) & d1) & o1) (((sp1' & q1') & d1') & o1') Hl (I1 & I1' & Iq & <- & <- & Io). specialize (Ho l Hl).
  unfold global_match_step. destruct (rspaces_get _ _ l I1 I1' Ho) as [(-> & ->)|(ls & ls' & Hr & El & El' & Hls & Hls')]; [reflexivity|].
  rewrite El, El'. cbn [bind]. eapply orel_bind; [apply orel_eqs, getBestGroup_crep; [|exact Iq]|].
  { apply (lists_crep l ls ls' (gf l) (gf' l)); auto. }
  intros (((l2 & q2) & gi) & d2) (((l2' & q2') & gi') & d2') ((K1 & K2 & K3) & E2 & E2'). cbn [fst snd] in *. subst gi' d2'.
  apply getBestGroup_sim in E2, E2'. pose proof (lists_sim N _ _ _ _ _ _ _ E2 Hls) as Q. pose proof (lists_sim N _ _ _ _ _ _ _ E2' Hls') as Q'.
  destruct (zset_ex sp1 l (Some l2)) as (sp2 & Es); [destruct I1 as (-> & _); lia|].
  destruct (zset_ex sp1' l (Some l2')) as (sp2' & Es'); [destruct I1' as (-> & _); destruct Ss as (<- & _); lia|].
  rewrite Es, Es'. cbn [bind]. pose proof (rspaces_put _ _ _ _ _ _ _ _ I1 Es (fun _ => Q)) as J. pose proof (rspaces_put _ _ _ _ _ _ _ _ I1' Es' (fun _ => Q')) as J'.
  destruct (nltb N d2 d1); cbn [orel gmrel]; [|auto 10]. do 5 (split; [auto|]). destruct gi; auto.
Qed.

(** The same group is searched. *)
Lemma match_group r gs gs' q q' x y : rspaces N h s b gf (gs_spaces N gs) -> rspaces N h' s' b' gf' (gs_spaces N gs') -> vrel q q' ->
  global_getBestMatch N h r s gs q = Ok x -> global_getBestMatch N h' r s' gs' q' = Ok y ->
  exists L gi ls ls' g g' q1 q1', 2 <= L <= set_len s /\ lists N h s b L ls (gf L) /\ lists N h' s' b' L ls' (gf' L) /\
    zget (ls_groups N ls) gi = Ok g /\ zget (ls_groups N ls') gi = Ok g' /\ vrel q1 q1' /\
    group_getBestMatch N h r s (ls_map N ls) g q1 = Ok (snd x) /\ group_getBestMatch N h' r s' (ls_map N ls') g' q1' = Ok (snd y).
Proof.
  intros H H' Hq. unfold global_getBestMatch. pose proof Hq as (Q1 & _).
  replace (zlen (gs_spaces N gs')) with (zlen (gs_spaces N gs)) by (destruct H as (-> & _), H' as (-> & _); destruct Ss as (<- & _); auto). rewrite <- Q1.
  destruct (Z.leb_spec (ts_len q) 1) as [|Hq1]; [discriminate|]. intros E E'.
  apply bind_Ok_inv in E as (order & Eo & E). rewrite Eo in E'. cbn [bind] in E'.
  pose proof (loop_rel r order _ _ q q' (ninf N) H H' Hq (order_low _ _ _ _ Eo ltac:(lia))) as L.
  apply bind_Ok_inv in E as ((((sp & q1) & d) & o) & E1 & E). apply bind_Ok_inv in E' as ((((sp' & q1') & d') & o') & E1' & E').
  rewrite E1, E1' in L. destruct L as (I1 & I1' & Iq & <- & <- & Io). destruct o as [(l & gi)|]; [|discriminate].
  destruct (rspaces_get _ _ l I1 I1' Io) as [(X & _)|(ls & ls' & Hr & El & El' & Hls & Hls')]; [now rewrite X in E|].
  rewrite El in E. rewrite El' in E'. cbn [bind] in E, E'.
  apply bind_Ok_inv in E as (g & Eg & E). apply bind_Ok_inv in E' as (g' & Eg' & E').
  apply bind_Ok_inv in E as (c & Ec & E). apply bind_Ok_inv in E' as (c' & Ec' & E'). injection E as <-. injection E' as <-. cbn [snd].
  exists l, gi, ls, ls', g, g', q1, q1'. auto 12.
Qed.

(** With the same members in the same order the answer is the same. *)
Lemma prev_links s0 L ls gm gi ms rem c r2 : 1 <= L <= set_len s0 -> links N s0 L ls gm -> zget gm gi = Ok ms -> ms = (rem ++ [c]) ++ r2 ->
  prev_of (ls_map N ls) (set_len s0 - L + 1) c = Ok (last rem (-1, -1)).
Proof.
  intros HL H Hi Er. destruct (links_get _ _ _ _ _ _ _ H Hi) as (g' & _ & (_ & _ & _ & _ & _ & Hch)).
  unfold prev_of. change (fst c * (set_len s0 - L + 1) + snd c) with (cpos s0 L c). rewrite Er in Hch.
  assert (Q : forall l1 l2 pr, chain s0 L (ls_map N ls) gi pr (l1 ++ l2) -> chain s0 L (ls_map N ls) gi pr l1).
  { clear. induction l1 as [|x l1 IH]; cbn; auto. intros l2 pr (A & B). split; auto. eapply IH; eauto. }
  apply Q in Hch. apply (chain_snoc s0 L HL) in Hch as (_ & ->). reflexivity.
Qed.
Lemma group_match_same r L ls ls' (gl gl' : gl_t) gi g g' q q' cs : 2 <= L <= set_len s -> lists N h s b L ls gl -> lists N h' s' b' L ls' gl' ->
  zget (map snd gl) gi = Ok cs -> zget (map snd gl') gi = Ok cs -> zget (ls_groups N ls) gi = Ok g -> zget (ls_groups N ls') gi = Ok g' -> vrel q q' ->
  orel (crel N h h') (group_getBestMatch N h r s (ls_map N ls) g q) (group_getBestMatch N h' r s' (ls_map N ls') g' q').
Proof.
  intros HL (H & _) (H' & _) Hm Hm' Hg Hg' Hq. pose proof Ss as (S1 & S2 & S3).
  assert (Hv : forall c, In c cs -> valid s L c) by (eapply (links_members_valid N s L); eauto).
  destruct (links_get _ _ _ _ _ _ _ H Hm) as (x & Ex & G). rewrite Hg in Ex. injection Ex as <-.
  destruct (links_get _ _ _ _ _ _ _ H' Hm') as (x' & Ex' & G'). rewrite Hg' in Ex'. injection Ex' as <-.
  destruct G as (G1 & G2 & G3 & G4 & G6 & _), G' as (G1' & G2' & G3' & G4' & G6' & _).
  pose proof (links_fuel N s Hlen L ltac:(lia) _ _ _ _ H Hm) as Hf. pose proof (links_fuel N s' ltac:(lia) L ltac:(lia) _ _ _ _ H' Hm') as Hf'.
  unfold group_getBestMatch. rewrite G6, G6', G2, G2'.
  eapply (orel_bind (fun x y : match_state N => snd (fst (fst x)) = snd (fst (fst y)) /\ snd (fst x) = snd (fst y) /\ vrel (snd x) (snd y))).
  - eapply orel_conseq; [apply (orel_walk (fun rem (x y : match_state N) => fst (fst (fst x)) = last rem (-1, -1) /\ fst (fst (fst y)) = last rem (-1, -1) /\
        (exists r2, cs = rem ++ r2) /\ snd (fst (fst x)) = snd (fst (fst y)) /\ snd (fst x) = snd (fst y) /\ vrel (snd x) (snd y))) with (rem := cs)|]; auto.
    + cbn [fst snd]. do 2 (split; [reflexivity|]). split; [exists []; now rewrite app_nil_r|auto].
    + intros (((c & e) & bm) & q1) (((c' & e') & bm') & q1') (H1 & H2 & _). cbn [fst snd last] in *. subst c c'. auto.
    + intros rem c (((c1 & e) & bm) & q1) (((c1' & e') & bm') & q1') (H1 & H2 & (r2 & Er) & H3 & H4 & H5). cbn [fst snd] in *.
      rewrite last_last in H1, H2. subst c1 c1' e' bm'.
      assert (Vc : valid s L c) by (apply Hv; rewrite Er; apply in_or_app; left; apply in_or_app; right; now left).
      destruct Vc as (V1 & _). destruct (Z.eqb_spec (fst c) (-1)) as [|_]; [lia|]. split; [reflexivity|]. split; [reflexivity|].
      unfold group_match_body. rewrite G2, G2', G3, G3'. eapply orel_bind; [apply S3|]. intros t t' Ht.
      eapply orel_bind; [apply cascade_rel; [exact H5|apply Ht]|]. intros ((q2 & t2) & d2) ((q2' & t2') & d2') (K1 & K2 & K3). cbn [fst snd] in *. subst d2'.
      rewrite (prev_links s L ls _ gi cs rem c r2 ltac:(lia) H Hm Er), (prev_links s' L ls' _ gi cs rem c r2 ltac:(lia) H' Hm' Er).
      assert (X : exists r3, cs = rem ++ r3) by (exists ([c] ++ r2); rewrite Er, <- app_assoc; reflexivity).
      destruct (nltb N d2 e); cbn; auto 10.
    + intros x y (_ & _ & _ & ?). auto.
  - intros (((c & e) & bm) & q1) (((c' & e') & bm') & q1') (H2 & H3 & H4). cbn [fst snd] in *. subst e' bm'.
    eapply orel_bind; [apply S3|]. intros t t' ((T1 & T2 & T3 & T4) & T5 & T6 & T7). cbn. repeat split; auto.
Qed.
Lemma match_same r gs gs' q q' : (forall L, 2 <= L <= set_len s -> gf L = gf' L) -> rspaces N h s b gf (gs_spaces N gs) -> rspaces N h' s' b' gf' (gs_spaces N gs') -> vrel q q' ->
  orel (fun x y => crel N h h' (snd x) (snd y)) (global_getBestMatch N h r s gs q) (global_getBestMatch N h' r s' gs' q').
Proof.
  intros Hgf H H' Hq. unfold global_getBestMatch. pose proof Hq as (Q1 & _).
  replace (zlen (gs_spaces N gs')) with (zlen (gs_spaces N gs)) by (destruct H as (-> & _), H' as (-> & _); destruct Ss as (<- & _); auto). rewrite <- Q1.
  destruct (Z.leb_spec (ts_len q) 1) as [|Hq1]; [reflexivity|].
  destruct (generateTraverseOrder N r (ts_len q) (zlen (gs_spaces N gs) - 1)) as [order| | |] eqn:Eo; cbn [bind orel]; auto.
  eapply orel_bind; [exact (loop_rel r order _ _ q q' (ninf N) H H' Hq (order_low _ _ _ _ Eo ltac:(lia)))|].
  intros (((sp & q1) & d) & o) (((sp' & q1') & d') & o') (I1 & I1' & Iq & <- & <- & Io). destruct o as [(l & gi)|]; [|reflexivity].
  destruct (rspaces_get _ _ l I1 I1' Io) as [(-> & ->)|(ls & ls' & Hr & El & El' & Hls & Hls')]; [reflexivity|].
  rewrite El, El'. cbn [bind]. eapply orel_bind; [apply orel_eqs, orel_zget, (lists_crep l ls ls' (gf l) (gf' l)); auto|].
  intros g g' (_ & Eg & Eg').
  destruct (zget_Ok (map snd (gf l)) gi) as (cs & Ecs).
  { unfold zlen. rewrite map_length. fold (zlen (gf l)). rewrite <- (lists_len _ _ _ _ _ _ _ Hls). apply zget_inv in Eg. tauto. }
  eapply orel_bind; [apply (group_match_same r l ls ls' (gf l) (gf' l) gi g g' q1 q1' cs); auto|].
  { now rewrite <- (Hgf l Hr). }
  intros c c' Hc. exact Hc.
Qed.
End Two.

(** Groups that were generated have their first members as representatives. *)
Lemma ls_ok_lists h s b data L ls gm : heap_get N h b = Ok data -> set_count s * set_len s <= zlen data -> 1 <= L <= set_len s -> ls_ok N h s b L ls gm ->
  lists N h s b L ls (map (fun ms => (vals N s data L (hd (0, 0) ms), ms)) gm).
Proof.
  intros Hh Hs HL H. split.
  - rewrite map_map. cbn [snd]. rewrite map_id. apply (ls_links N h s b L ls gm H).
  - intros i g v cs Hg Hv. pose proof (zget_inv _ _ _ Hv) as (R & _).
    destruct (zget_Ok gm i) as (ms & Em); [unfold zlen in *; rewrite map_length in R; exact R|].
    pose proof (eq_trans (eq_sym (zget_map (fun ms : list coord => (vals N s data L (hd (0, 0) ms), ms)) _ _ _ Em)) Hv) as X. injection X as <- <-.
    pose proof (proj1 (proj2 (proj2 (proj2 (proj2 H)))) i g ms Hg Em) as (G1 & G2 & G3 & G4 & G5 & G6 & Sc & Cc & _).
    pose proof (ls_members_valid N h s b L _ _ _ _ H Em _ (hd_in (0, 0) ms G5)) as Vh.
    split; [rewrite (same_read N h _ _ Sc); apply (read_view N h s b data Hh); auto|].
    split; [destruct Sc as (_ & _ & _ & _ & ->); reflexivity|]. split; auto. unfold here. destruct Sc as (-> & _). reflexivity.
Qed.
Lemma ready_rready σ i d data gmf : ready N σ i d data gmf ->
  rready N σ i d data (fun L => map (fun ms => (vals N (ds_set N d) data L (hd (0, 0) ms), ms)) (gmf L)).
Proof.
  intros (C & Hlen & b & gs & B1 & B2 & B3 & B4 & B5 & B6 & _ & B8). split; auto. split; auto. exists b, gs. do 5 (split; [assumption|]).
  split; [|rewrite B8; now left]. destruct B6 as (Z & H). split; auto. intros L HL. destruct (H L HL) as (ls & E & Hl). exists ls. split; auto. apply ls_ok_lists; auto. lia.
Qed.

(** A search that ends with a distance has found a member. *)
Definition at_member (L : Z) (cs : list coord) (c : candidate N) : Prop :=
  cand_dist c = ninf N \/ exists p, In p cs /\ ts_index (cand_data c) = fst p /\ ts_start (cand_data c) = snd p /\ ts_len (cand_data c) = L.
Lemma group_match_member h s b r L ls (gl : list (list (num N) * list coord)) gi g q cs c : set_buf s = Some b -> 2 <= L <= set_len s -> lists N h s b L ls gl ->
  zget (map snd gl) gi = Ok cs -> zget (ls_groups N ls) gi = Ok g -> group_getBestMatch N h r s (ls_map N ls) g q = Ok c -> at_member L cs c.
Proof.
  intros Hb0 HL (H & _) Hm Hg E. assert (Hv : forall c, In c cs -> valid s L c) by (eapply (links_members_valid N s L); eauto).
  destruct (links_get _ _ _ _ _ _ _ H Hm) as (x & Ex & G). rewrite Hg in Ex. injection Ex as <-. destruct G as (G1 & G2 & G3 & G4 & G6 & _).
  unfold group_getBestMatch in E. apply bind_Ok_inv in E as ((((cur & d) & m) & q1) & E1 & E).
  set (I := fun st : match_state N => let '(cur, d, m, _) := st in exists rem r2, cs = rem ++ r2 /\ cur = last rem (-1, -1) /\ (d = ninf N \/ In m cs)).
  assert (P : I (cur, d, m, q1)).
  { refine (while_Ok_inv_c I _ _ _ _ _ E1 _ _).
    - exists cs, []. rewrite app_nil_r. auto.
    - intros (((c1 & d1) & m1) & q2) (((c2 & d2) & m2) & q3) Hc Hb (rem & r2 & Er & Ec & Hd). cbn in Hc.
      destruct (exists_last (l := rem)) as (rem' & a & Ea).
      { intros ->. cbn in Ec. subst c1. discriminate. }
      subst rem. rewrite last_last in Ec. subst c1.
      unfold group_match_body in Hb. apply bind_Ok_inv in Hb as (t & _ & Hb). apply bind_Ok_inv in Hb as (((q4 & t4) & d4) & _ & Hb).
      assert (Ha : In a cs) by (rewrite Er; apply in_or_app; left; apply in_or_app; right; now left).
      destruct (nltb N d4 d1); apply bind_Ok_inv in Hb as (nx & Ep & Hb); injection Hb as <- <- <- <-;
        rewrite G3, (prev_links s L ls _ gi cs rem' a r2 ltac:(lia) H Hm Er) in Ep; injection Ep as <-;
        exists rem', (a :: r2); (split; [rewrite Er, <- app_assoc; reflexivity|]); split; auto. }
  destruct P as (_ & _ & _ & _ & [->|Hin]); apply bind_Ok_inv in E as (t & Et & E); injection E as <-; [left; reflexivity|right]. cbn [cand_data].
  exists m. split; auto. rewrite G2, (get_view N s b Hb0 L ltac:(lia) m (Hv m Hin)) in Et. injection Et as <-. cbn. auto.
Qed.

(** Two datasets whose groups have the same representatives: the matches are members of the same group. *)
Theorem rready_group σ1 i1 d1 data1 gf1 q1 ix1 a1 e1 σ2 i2 d2 data2 gf2 q2 ix2 a2 e2 qv σ1' c1 σ2' c2 :
  rready N σ1 i1 d1 data1 gf1 -> rready N σ2 i2 d2 data2 gf2 -> same_values N (ds_set N d1) (ds_set N d2) data1 data2 ->
  (forall L, 2 <= L <= set_len (ds_set N d1) -> map fst (gf1 L) = map fst (gf2 L)) ->
  query_is N σ1 q1 ix1 a1 e1 qv -> query_is N σ2 q2 ix2 a2 e2 qv -> st_ratio N σ1 = st_ratio N σ2 ->
  api_match N σ1 i1 q1 ix1 a1 e1 = Done N σ1' (VCand N c1) -> api_match N σ2 i2 q2 ix2 a2 e2 = Done N σ2' (VCand N c2) ->
  exists L k v1 cs1 v2 cs2, 2 <= L <= set_len (ds_set N d1) /\ zget (gf1 L) k = Ok (v1, cs1) /\ zget (gf2 L) k = Ok (v2, cs2) /\ at_member L cs1 c1 /\ at_member L cs2 c2.
Proof.
  intros (C1 & Hlen & b1 & gs1 & B1 & H1 & P1 & L1 & Eg1 & R1 & _) (C2 & _ & b2 & gs2 & B2 & H2 & P2 & L2 & Eg2 & R2 & _) V Hgf Q1 Q2 Er.
  destruct (query_read N _ _ _ _ _ _ Q1) as (dq1 & u1 & Cq1 & Gt1 & Rt1 & Lt1 & Ct1).
  destruct (query_read N _ _ _ _ _ _ Q2) as (dq2 & u2 & Cq2 & Gt2 & Rt2 & Lt2 & Ct2).
  assert (S : srel N (st_heap N σ1) (st_heap N σ2) (ds_set N d1) (ds_set N d2)).
  { eapply srel_values; eauto. destruct V as (-> & -> & _). exact L2. }
  assert (Vq : vrel N (st_heap N σ1) (st_heap N σ2) u1 u2).
  { split; [congruence|]. split; [congruence|]. split; now apply cache_None. }
  unfold api_match. rewrite C1, C2. cbn [lift]. rewrite Cq1, Cq2. cbn [lift]. rewrite Gt1, Gt2. cbn [lift]. rewrite Eg1, Eg2, <- Er.
  destruct (global_getBestMatch N (st_heap N σ1) (st_ratio N σ1) (ds_set N d1) gs1 u1) as [(g1 & c1')|x1|x1|] eqn:M1; try discriminate.
  destruct (global_getBestMatch N (st_heap N σ2) (st_ratio N σ1) (ds_set N d2) gs2 u2) as [(g2 & c2')|x2|x2|] eqn:M2; try discriminate.
  cbn [lift]. intros X1 X2. injection X1 as _ ->. injection X2 as _ ->.
  destruct (match_group (st_heap N σ1) (st_heap N σ2) (ds_set N d1) (ds_set N d2) b1 b2 S gf1 gf2 Hgf (st_ratio N σ1) gs1 gs2 u1 u2 _ _ R1 R2 Vq M1 M2)
    as (L & gi & ls1 & ls2 & g & g' & v1 & v2 & HL & K1 & K2 & Z1 & Z2 & _ & E1 & E2). cbn [snd] in E1, E2.
  destruct (zget_Ok (gf1 L) gi) as ((w1 & cs1) & W1); [rewrite <- (lists_len _ _ _ _ _ _ _ K1); apply zget_inv in Z1; tauto|].
  destruct (zget_Ok (gf2 L) gi) as ((w2 & cs2) & W2); [rewrite <- (lists_len _ _ _ _ _ _ _ K2); apply zget_inv in Z2; tauto|].
  exists L, gi, w1, cs1, w2, cs2. split; auto. split; auto. split; auto. split.
  - eapply group_match_member; [exact B1|exact HL|exact K1|exact (zget_map snd _ _ _ W1)|exact Z1|exact E1].
  - eapply group_match_member; [exact B2| |exact K2|exact (zget_map snd _ _ _ W2)|exact Z2|exact E2]. destruct V as (_ & <- & _). exact HL.
Qed.

Theorem rready_same σ1 i1 d1 data1 gf1 q1 ix1 a1 e1 σ2 i2 d2 data2 gf2 q2 ix2 a2 e2 qv :
  rready N σ1 i1 d1 data1 gf1 -> rready N σ2 i2 d2 data2 gf2 -> same_values N (ds_set N d1) (ds_set N d2) data1 data2 ->
  (forall L, 2 <= L <= set_len (ds_set N d1) -> gf1 L = gf2 L) ->
  query_is N σ1 q1 ix1 a1 e1 qv -> query_is N σ2 q2 ix2 a2 e2 qv -> st_ratio N σ1 = st_ratio N σ2 ->
  same_answer N (api_match N σ1 i1 q1 ix1 a1 e1) (api_match N σ2 i2 q2 ix2 a2 e2).
Proof.
  intros (C1 & Hlen & b1 & gs1 & B1 & H1 & P1 & L1 & Eg1 & R1 & _) (C2 & _ & b2 & gs2 & B2 & H2 & P2 & L2 & Eg2 & R2 & _) V Hgf Q1 Q2 Er.
  destruct (query_read N _ _ _ _ _ _ Q1) as (dq1 & u1 & Cq1 & Gt1 & Rt1 & Lt1 & Ct1).
  destruct (query_read N _ _ _ _ _ _ Q2) as (dq2 & u2 & Cq2 & Gt2 & Rt2 & Lt2 & Ct2).
  unfold api_match. rewrite C1, C2. cbn [lift]. rewrite Cq1, Cq2. cbn [lift]. rewrite Gt1, Gt2. cbn [lift]. rewrite Eg1, Eg2, <- Er.
  assert (S : srel N (st_heap N σ1) (st_heap N σ2) (ds_set N d1) (ds_set N d2)).
  { eapply srel_values; eauto. destruct V as (-> & -> & _). exact L2. }
  assert (Vq : vrel N (st_heap N σ1) (st_heap N σ2) u1 u2).
  { split; [congruence|]. split; [congruence|]. split; now apply cache_None. }
  pose proof (match_same (st_heap N σ1) (st_heap N σ2) (ds_set N d1) (ds_set N d2) b1 b2 S Hlen gf1 gf2 (fun L HL => f_equal (map fst) (Hgf L HL)) (st_ratio N σ1) gs1 gs2 u1 u2 Hgf R1 R2 Vq) as M.
  destruct (global_getBestMatch N (st_heap N σ1) (st_ratio N σ1) (ds_set N d1) gs1 u1) as [(g1 & c1)|x1|x1|],
           (global_getBestMatch N (st_heap N σ2) (st_ratio N σ1) (ds_set N d2) gs2 u2) as [(g2 & c2)|x2|x2|];
    cbn [orel] in M; try tauto; cbn [lift same_answer]; try congruence; try exact I.
  cbn [snd put_set with_sets st_heap] in *. destruct M as (((A1 & A2 & _) & A3 & A4 & A5) & A6). repeat split; congruence.
Qed.
End RepIndep.
