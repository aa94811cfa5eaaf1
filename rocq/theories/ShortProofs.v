(** * No match compares a series of one point. *)
From Coq Require Import ZArith Bool Lia String List.
From Verif Require Import Outcome Num Lemire Distance TimeSeries Text Dataset Groups Api.
From Verif Require Import TsProofs GroupSpec GroupProofs GlobalGroup SimProofs SessionProofs ApiProofs ShortSpec.
Import ListNotations.
Open Scope Z_scope.

(** Loops whose bodies agree where the invariant holds. *)
Lemma for_agree {S} (I : S -> Prop) (b1 b2 : Z -> S -> outcome S) lo hi s : I s ->
  (forall i t, lo <= i < hi -> I t -> b1 i t = b2 i t) -> (forall i t t', lo <= i < hi -> I t -> b2 i t = Ok t' -> I t') ->
  for_ lo hi b1 s = for_ lo hi b2 s.
Proof.
  unfold for_. intros HI H1 H2.
  assert (G : forall n i s, i + Z.of_nat n <= Z.max lo hi -> lo <= i -> I s -> loop n i b1 s = loop n i b2 s).
  { induction n as [|n IH]; intros i t Hi Hlo Ht; cbn [loop]; auto. rewrite H1 by (auto; lia).
    destruct (b2 i t) as [u| | |] eqn:E; cbn [bind]; auto. apply IH; try lia. eapply H2; eauto. lia. }
  apply G; auto; lia.
Qed.
Lemma while_agree {S} (I : S -> Prop) c (b1 b2 : S -> outcome S) n : forall s, I s ->
  (forall t, I t -> b1 t = b2 t) -> (forall t t', I t -> b2 t = Ok t' -> I t') -> while_ n c b1 s = while_ n c b2 s.
Proof.
  induction n as [|n IH]; intros s HI H1 H2; cbn [while_]; auto.
  destruct (c s) as [[]| | |]; cbn [bind]; auto. rewrite H1 by auto. destruct (b2 s) as [u| | |] eqn:E; cbn [bind]; auto. apply IH; eauto.
Qed.
Lemma each_agree {A S} (P : A -> Prop) (I : S -> Prop) (b1 b2 : A -> S -> outcome S) l : forall s, Forall P l -> I s ->
  (forall x t, P x -> I t -> b1 x t = b2 x t) -> (forall x t t', P x -> I t -> b2 x t = Ok t' -> I t') ->
  for_each l b1 s = for_each l b2 s.
Proof.
  induction l as [|x l IH]; intros s HP HI H1 H2; cbn [for_each]; auto. inversion_clear HP.
  rewrite H1 by auto. destruct (b2 x s) as [u| | |] eqn:E; cbn [bind]; auto. apply IH; eauto.
Qed.

Section Short.
Context (N : NumOps) (IO : NumIO N) (writable : string -> bool).
Local Notation T := (num N).
Local Notation check := (checkDatasetIndex N).

Definition gfine (L : Z) (g : group N) : Prop := g_length N g = L /\ ts_len (g_centroid N g) = L.
Definition lfine (L : Z) (ls : lspace N) : Prop := Forall (gfine L) (ls_groups N ls).
(** The groups of the lengths that a match visits consist of series of that length. *)
Definition sized (sp : list (option (lspace N))) : Prop :=
  forall L ls, 2 <= L -> zget sp L = Ok (Some ls) -> lfine L ls.
Definition all_sized (σ : st N) : Prop := forall i d gs, check σ i = Ok d -> ds_groups N d = Some gs -> sized (gs_spaces N gs).

Lemma cascade_len h ratio a b d a' b' x : cascade_ts N h ratio a b d = Ok (a', b', x) -> ts_len a' = ts_len a /\ ts_len b' = ts_len b.
Proof.
  intros E. apply cascade_sim in E as (((_ & _ & _ & _ & A) & _) & ((_ & _ & _ & _ & B) & _)). auto.
Qed.

(** ** The order. *)
Lemma order_ge2 ratio q n order : 2 <= q -> generateTraverseOrder N ratio q n = Ok order -> Forall (fun L => 2 <= L) order.
Proof.
  intros Hq. unfold generateTraverseOrder. intros E. apply bind_Ok_inv in E as (((((o & lo) & hi) & ls) & hs) & E & E2). injection E2 as ->.
  assert (G : forall fuel (s s' : to_state), (let '(o, lo, hi, _, _) := s in Forall (fun L => 2 <= L) o /\ 2 <= hi) ->
    while_ fuel (fun st : to_state => let '(_, _, _, ls, hs) := st in Ok (negb (ls && hs))) (traverse_body N ratio q n) s = Ok s' ->
    let '(o, _, _, _, _) := s' in Forall (fun L => 2 <= L) o).
  { induction fuel as [|f IH]; intros ((((o & l) & h) & a) & b) s' (H & Hh) W; cbn [while_ bind] in W.
    { destruct (negb _); [discriminate W|injection W as <-; exact H]. }
    destruct (negb _); [|injection W as <-; exact H].
    apply bind_Ok_inv in W as (t & Et & W). apply IH in W; auto. clear W IH.
    unfold traverse_body in Et. apply bind_Ok_inv in Et as (((o1 & l1) & a1) & E1 & Et). apply bind_Ok_inv in Et as (((o2 & h2) & b2) & E3 & Et).
    injection Et as <-.
    assert (H1 : Forall (fun L => 2 <= L) o1).
    { destruct (Z.ltb_spec l 2); destruct a; cbn [orb negb] in E1; try (injection E1 as <- _ _; exact H).
      apply bind_Ok_inv in E1 as (r & _ & E1). destruct (_ <=? _); injection E1 as <- _ _; auto. apply Forall_app. auto. }
    destruct (negb _) in E3; [|injection E3 as <- <- _; auto].
    apply bind_Ok_inv in E3 as (r & _ & E3). destruct (_ <=? _); injection E3 as <- <- _; auto. split; [apply Forall_app; auto|lia]. }
  apply (G _ _ _) in E; auto. split; [repeat constructor; lia|lia].
Qed.

(** ** The match. *)
Context (cas : distance N) (Hcas : agrees N cas).

Lemma member_len s ix a L t : 2 <= L -> 2 <= set_len s -> getTimeSeries N s ix a (a + L) = Ok t -> 2 <= ts_len t.
Proof.
  intros HL Hs. unfold getTimeSeries. destruct (_ || _); [discriminate|]. destruct (_ && _); [intros E; injection E as <-; exact Hs|].
  destruct (_ || _); [discriminate|]. intros E. injection E as <-. cbn. lia.
Qed.
Lemma group_agree h r s m g q : 2 <= g_length N g -> 2 <= set_len s -> 2 <= ts_len q ->
  group_getBestMatch_with N cas h r s m g q = group_getBestMatch N h r s m g q.
Proof.
  intros Hg Hs Hq. unfold group_getBestMatch_with, group_getBestMatch. f_equal.
  apply (while_agree (fun st : match_state N => let '(_, _, _, q) := st in 2 <= ts_len q)); auto.
  - intros (((cur & bd) & bm) & q1) Hq1. unfold group_match_body_with, group_match_body.
    destruct (getTimeSeries N s (fst cur) (snd cur) _) as [t| | |] eqn:Et; cbn [bind]; auto.
    cbn in Hq1. rewrite Hcas; [reflexivity|exact Hq1|exact (member_len _ _ _ _ _ Hg Hs Et)].
  - intros (((cur & bd) & bm) & q1) t' Hq1 E. unfold group_match_body in E. apply bind_Ok_inv in E as (t & _ & E).
    apply bind_Ok_inv in E as (((q2 & t2) & d) & Ec & E). apply cascade_len in Ec as (Lq & _).
    destruct (nltb N d bd); apply bind_Ok_inv in E as (p & _ & E); injection E as <-; lia.
Qed.
Lemma set_cent_fine L g c : gfine L g -> ts_len c = L -> gfine L (set_centroid_ts N g c).
Proof. intros (A & B) C. split; auto. Qed.
Lemma best_agree h r L ls q d : 2 <= L -> lfine L ls -> 2 <= ts_len q ->
  getBestGroup_with N cas h r ls q d = getBestGroup N h r ls q d /\
  forall ls' q' gi x, getBestGroup N h r ls q d = Ok (ls', q', gi, x) -> lfine L ls' /\ 2 <= ts_len q'.
Proof.
  intros HL Hls Hq.
  set (I := fun st : bg_state N => let '(gr, q, _, _) := st in Forall (gfine L) gr /\ 2 <= ts_len q).
  assert (K : forall i t t', I t -> best_group_step N h r i t = Ok t' -> I t').
  { intros i (((gr & q1) & bd) & bg) t' (Hgr & Hq1) E. unfold best_group_step in E. apply bind_Ok_inv in E as (g & Eg & E).
    apply bind_Ok_inv in E as (((c & q2) & d2) & Ec & E). apply cascade_len in Ec as (Lc & Lq). apply bind_Ok_inv in E as (gr2 & E2 & E).
    apply zget_inv in Eg as (_ & Eg). assert (Gg : gfine L g) by (apply nth_error_In in Eg; exact (proj1 (Forall_forall _ _) Hgr _ Eg)).
    assert (X : Forall (gfine L) gr2).
    { apply zset_inv in E2 as (_ & ->). apply Forall_list_set; auto. apply set_cent_fine; auto. rewrite Lc. apply Gg. }
    destruct (nltb N d2 bd); injection E as <-; split; auto; lia. }
  split.
  - unfold getBestGroup_with, getBestGroup. f_equal. apply (for_agree I); [split; auto| |intros i t t' _; apply K].
    intros i (((gr & q1) & bd) & bg) _ (Hgr & Hq1). unfold best_group_step_with, best_group_step.
    destruct (zget gr i) as [g| | |] eqn:Eg; cbn [bind]; auto. apply zget_inv in Eg as (_ & Eg).
    assert (Gg : gfine L g) by (apply nth_error_In in Eg; exact (proj1 (Forall_forall _ _) Hgr _ Eg)).
    rewrite Hcas; [reflexivity|destruct Gg; lia|exact Hq1].
  - intros ls' q' gi x E. unfold getBestGroup in E. apply bind_Ok_inv in E as ((((gr & q1) & bd) & bg) & E & E2). injection E2 as <- <- _ _.
    pose proof (for_Ok_inv I _ _ _ _ _ E ltac:(split; auto) (fun i t t' _ e it => K i t t' it e)) as (A & B). auto.
Qed.
Lemma match_agree h r s gs q : sized (gs_spaces N gs) -> 2 <= set_len s ->
  global_getBestMatch_with N cas h r s gs q = global_getBestMatch N h r s gs q.
Proof.
  intros Hsz Hs. unfold global_getBestMatch_with, global_getBestMatch. destruct (Z.leb_spec (ts_len q) 1) as [|Hq]; auto.
  destruct (generateTraverseOrder N r (ts_len q) _) as [order| | |] eqn:Eo; cbn [bind]; auto.
  apply order_ge2 in Eo; [|lia].
  set (I := fun st : gm_state N => let '(sp, q, _, b) := st in sized sp /\ 2 <= ts_len q /\ match b with Some (l, _) => 2 <= l | None => True end).
  assert (K : forall L t t', 2 <= L -> I t -> global_match_step N h r L t = Ok t' -> I t').
  { intros L (((sp & q1) & bd) & bg) t' HL (Hsp & Hq1 & Hb) E. unfold global_match_step in E. apply bind_Ok_inv in E as (o & Eg & E).
    destruct o as [ls|]; [|discriminate]. pose proof (Hsp L ls HL Eg) as Hls.
    apply bind_Ok_inv in E as ((((ls' & q2) & gi) & d2) & Ec & E). apply (proj2 (best_agree h r L ls q1 bd HL Hls Hq1)) in Ec as (Hls' & Hq2).
    apply bind_Ok_inv in E as (sp2 & E2 & E).
    assert (X : sized sp2).
    { intros L' l HL' El. destruct (Z.eq_dec L L') as [<-|Hn].
      - rewrite (zget_zset_eq _ _ _ _ E2) in El. injection El as <-. exact Hls'.
      - rewrite (zget_zset_neq _ _ _ _ _ E2 Hn) in El. exact (Hsp L' l HL' El). }
    destruct (nltb N d2 bd); injection E as <-; (split; [auto|split; [lia|]]); auto. destruct gi; auto. }
  assert (R : for_each order (global_match_step_with N cas h r) (gs_spaces N gs, q, ninf N, None) =
              for_each order (global_match_step N h r) (gs_spaces N gs, q, ninf N, None)).
  { apply (each_agree (fun L => 2 <= L) I); auto; [split; [auto|split; [lia|exact Logic.I]]|].
    intros L (((sp & q1) & bd) & bg) HL (Hsp & Hq1 & Hb). unfold global_match_step_with, global_match_step.
    destruct (zget sp L) as [[ls|]| | |] eqn:Eg; cbn [bind]; auto. pose proof (Hsp L ls HL Eg) as Hls.
    now rewrite (proj1 (best_agree h r L ls q1 bd HL Hls Hq1)). }
  rewrite R. destruct (for_each order (global_match_step N h r) _) as [(((sp & q1) & bd) & bg)| | |] eqn:Ef; cbn [bind]; auto.
  assert (F : I (sp, q1, bd, bg)).
  { eapply (for_each_Ok_inv I); [exact Ef|split; [auto|split; [lia|exact Logic.I]]|]. intros L t t' HL E It. exact (K L t t' (proj1 (Forall_forall _ _) Eo L HL) It E). }
  destruct F as (Hsp & Hq1 & Hb). destruct bg as [(l & gi)|]; auto. destruct (zget sp l) as [[ls|]| | |] eqn:El; cbn [bind]; auto.
  destruct (zget (ls_groups N ls) gi) as [g| | |] eqn:Eg; cbn [bind]; auto. apply zget_inv in Eg as (_ & Eg). apply nth_error_In in Eg.
  pose proof (proj1 (Forall_forall _ _) (Hsp l ls Hb El) g Eg) as (G & _). rewrite group_agree; auto. lia.
Qed.
Theorem session_agree σ r q ix a e : all_sized σ -> (forall d, check σ r = Ok d -> 2 <= set_len (ds_set N d)) ->
  match_with N cas σ r q ix a e = step N IO writable σ (OpMatch N r q ix a e).
Proof.
  intros H Hl. rewrite with_cascade. unfold match_with. destruct (check σ r) as [d| | |] eqn:C; cbn [lift]; auto.
  destruct (check σ q) as [dq| | |]; cbn [lift]; auto. destruct (getTimeSeries _ _ _ _ _) as [t| | |]; cbn [lift]; auto.
  destruct (ds_groups N d) as [gs|] eqn:G; auto. rewrite match_agree; [reflexivity|exact (H _ _ _ C G)|auto].
Qed.
End Short.

(** ** All reachable sessions have such groups. *)
Section Reach.
Context (N : NumOps) (IO : NumIO N) (writable : string -> bool).
Local Notation check := (checkDatasetIndex N).
Local Notation sized := (sized N).
Local Notation all_sized := (all_sized N).

Lemma sized_repeat n : sized (zrepeat None n).
Proof.
  intros L ls _ E. apply zget_inv in E as (_ & E). apply nth_error_In in E. unfold zrepeat in E. apply repeat_spec in E. discriminate E.
Qed.
Lemma sized_set sp L ls sp' : sized sp -> lfine N L ls -> zset sp L (Some ls) = Ok sp' -> sized sp'.
Proof.
  intros H Hls E L' l HL' El. destruct (Z.eq_dec L L') as [<-|Hn].
  - rewrite (zget_zset_eq _ _ _ _ E) in El. injection El as <-. exact Hls.
  - rewrite (zget_zset_neq _ _ _ _ _ E Hn) in El. exact (H L' l HL' El).
Qed.
Lemma group_sized h r s thr clock gs n : global_group N h r s "euclidean" thr clock = Ok (gs, n) -> sized (gs_spaces N gs).
Proof.
  unfold global_group. change (getDistance "euclidean") with (Ok DPairwise). cbn [bind]. intros E.
  apply bind_Ok_inv in E as (sp0 & E0 & E). unfold resize_null in E0. destruct (Z.ltb_spec (set_len s + 1) 0); [discriminate|]. injection E0 as <-.
  apply bind_Ok_inv in E as ((sp & tot) & E1 & E). injection E as <- _. cbn [gs_spaces].
  pose proof (for_Ok_inv (fun x : list (option (lspace N)) * Z => sized (fst x)) _ _ _ _ _ E1) as F. cbn [fst] in F. apply F; [apply sized_repeat|].
  clear E1 F. intros L (sp1 & t1) (sp2 & t2) HL E H1. cbn [fst] in *. rewrite zlen_zrepeat in HL by lia.
  apply bind_Ok_inv in E as (ls & En & E). apply bind_Ok_inv in E as (ls' & Eg & E). apply bind_Ok_inv in E as (sp3 & Es & E). injection E as <- _.
  eapply sized_set; [exact H1| |exact Es].
  assert (Hls : lok N s L ls) by (unfold new_lspace in En; destruct (_ <? 0); [discriminate|injection En as <-; repeat split; cbn; auto]).
  assert (P : pc (generateGroups N DPairwise h r s thr (clock L) ls) (lok N s L) not_onex).
  { unfold generateGroups. eapply (pc_bind (fun x : lspace N * Z => lok N s L (fst x))); [|intros (l & c) Hl; exact Hl].
    apply pc_for; auto. intros start x Hst Hx. apply pc_for; auto. intros idx (l & c) Hidx Hl. cbn [fst] in Hl.
    eapply (pc_bind (fun _ => True)).
    { unfold log_progress. destruct (clock L); cbn; auto. destruct (_ =? 0); cbn; auto. }
    intros _ _. eapply pc_bind; [apply insert_pc; eauto; destruct Hls as (_ & Es' & _); lia|]. intros l' Hl'. exact Hl'. }
  rewrite Eg in P. cbn in P. destruct P as (_ & _ & P). eapply Forall_impl; [|exact P]. intros g (A & B & _). split; auto.
Qed.
Lemma addMember_fine L m g i st m' g' : addMember N m g i st = Ok (m', g') -> gfine N L g -> gfine N L g'.
Proof. unfold addMember. intros E. apply bind_Ok_inv in E as (m1 & _ & E). injection E as _ <-. auto. Qed.
Lemma loadGroup_fine L fin m g x : gfine N L g -> loadGroup N IO fin m g = Ok x -> gfine N L (snd x).
Proof.
  intros (HL & HC) E. unfold loadGroup in E. apply bind_Ok_inv in E as (c0 & E0 & E). apply bind_Ok_inv in E as ((fin1 & v) & _ & E). cbn zeta in E.
  destruct (extract conv_int fin1) as (fin2 & cnt). apply bind_Ok_inv in E as (n & _ & E).
  apply bind_Ok_inv in E as ((((f3 & m3) & g3) & p3) & E3 & E). injection E as <-. cbn [snd].
  pose proof (for_Ok_inv (fun st => gfine N L (snd (fst st))) _ _ _ _ _ E3) as F. cbn [fst snd] in F. apply F; clear F E3.
  - split; [exact HL|]. cbn. unfold ts_new in E0. destruct (_ <? 0); [discriminate|]. injection E0 as <-. exact HL.
  - intros i (((f & m1) & g1) & (ix & st0)) (((f' & m1') & g1') & p') _ E H. cbn [fst snd] in *.
    destruct (extract conv_int f) as (f1 & i1). destruct (extract conv_int f1) as (f2 & i2). cbn zeta in E.
    apply bind_Ok_inv in E as (a & _ & E). apply bind_Ok_inv in E as (b & _ & E). apply bind_Ok_inv in E as ((m2 & g2) & Ea & E).
    injection E as <- <- <- _. eapply addMember_fine; eauto.
Qed.
Lemma local_load_fine L fin ls x : ls_length N ls = L -> local_loadGroups N IO fin ls = Ok x -> lfine N L (snd (fst x)).
Proof.
  intros HL E. unfold local_loadGroups in E. destruct (extract conv_int fin) as (f & n). apply bind_Ok_inv in E as (k & _ & E).
  destruct (k <? 0); [discriminate|]. apply bind_Ok_inv in E as (((f1 & m1) & gr) & E1 & E). injection E as <-. cbn [snd fst].
  unfold lfine. cbn [ls_groups]. pose proof (for_Ok_inv (fun st => Forall (gfine N L) (snd st)) _ _ _ _ _ E1) as F. cbn [snd] in F. apply F; [constructor|].
  clear E1 F. intros i ((f2 & m2) & g2) ((f3 & m3) & g3) _ E H. cbn [snd] in *. apply bind_Ok_inv in E as (g & En & E).
  apply bind_Ok_inv in E as (((f4 & m4) & g4) & El & E). injection E as <- <- <-. apply Forall_app. split; auto. constructor; auto.
  apply (loadGroup_fine L) in El; auto. unfold new_group in En. rewrite HL in En. apply bind_Ok_inv in En as (c & Ec & En). injection En as <-.
  split; [reflexivity|]. cbn. unfold ts_new in Ec. destruct (_ <? 0); [discriminate|]. now injection Ec as <-.
Qed.
Lemma global_load_sized s fin : pc (global_loadGroups N IO s fin) (fun x => sized (gs_spaces N (fst x))) (fun _ => True).
Proof.
  assert (Nil : sized []). { intros L ls _ E. apply zget_inv in E as (_ & E). destruct (Z.to_nat L); discriminate E. }
  unfold global_loadGroups. destruct (extract conv_int fin) as (f1 & lf). destruct (extract conv_int f1) as (f2 & lt).
  destruct (extract conv_word f2) as (f3 & w). cbn zeta. destruct (getDistance _) as [k|e| |]; try (cbn; auto; fail).
  assert (R : pc (resize_null N (set_len s + 1)) sized (fun _ => True)).
  { unfold resize_null. destruct (_ <? 0); cbn; auto. apply sized_repeat. }
  destruct (resize_null _ _) as [sp|e| |]; try (cbn; auto; fail). cbn in R.
  eapply (pc_bind (fun _ => True)). { destruct lf; cbn; auto. }
  intros a _. eapply (pc_bind (fun _ => True)). { destruct lt; cbn; auto. }
  intros b _. cbn zeta. destruct (_ <? _); [destruct (_ <? _); cbn; auto|].
  eapply (pc_bind (fun x => sized (snd (fst x)))).
  - apply pc_forb; auto. intros i ((f & sp1) & r) _ H. cbn [fst snd] in H.
    destruct (gel <- new_lspace N s i ;; local_loadGroups N IO f gel) as [((f5 & gel) & n)|e| |] eqn:El; cbn; auto.
    destruct r as [tot|e]; cbn; auto. apply bind_Ok_inv in El as (gel0 & En & El).
    assert (HL : ls_length N gel0 = i) by (unfold new_lspace in En; destruct (_ <? 0); [discriminate|now injection En as <-]).
    apply (local_load_fine i) in El; auto. cbn [snd fst] in El.
    destruct (zset sp1 i (Some gel)) as [sp2| | |] eqn:Es; cbn; auto.
    + eapply sized_set; eauto.
  - intros ((f & sp1) & r) H. exact H.
Qed.
Lemma sized_sim h sp sp' : Forall2 (osim N h) sp sp' -> sized sp -> sized sp'.
Proof.
  intros F H L ls HL E. destruct (Forall2_zget _ _ _ _ _ F E) as (o & Eo & So). destruct o as [l|]; [|destruct So].
  pose proof (H L l HL Eo) as Hl. destruct So as (_ & _ & _ & G). unfold lfine in *. clear - G Hl. revert Hl.
  induction G as [|g g' l1 l2 Hg G IH]; intros H; constructor; inversion_clear H; auto.
  destruct Hg as (_ & _ & A & _ & _ & ((_ & _ & _ & _ & B) & _)). destruct H0 as (C & D). split; congruence.
Qed.
Lemma sized_ext σ σ' : st_sets N σ' = st_sets N σ -> all_sized σ -> all_sized σ'.
Proof. intros E H i d gs C G. apply (H i d gs); auto. now rewrite <- (check_ext _ _ _ E). Qed.
Lemma sized_put σ h i d d' : all_sized σ -> check σ i = Ok d -> (forall gs, ds_groups N d' = Some gs -> sized (gs_spaces N gs)) ->
  all_sized (put_set N (with_heap N σ h) i (Some d')).
Proof.
  intros W C H j d1 gs Hj G. pose proof (proj1 (check_inv _ _ _ _ C)) as Hr.
  apply check_put_cases in Hj as [(-> & [= <-])|(_ & Hj)]; [exact (H gs G)| |lia].
  apply (W j d1 gs); auto. 
Qed.
Theorem step_sized σ o σ' : all_sized σ -> after N (step N IO writable σ o) = Some σ' -> all_sized σ'.
Proof.
  intros W A. destruct (step N IO writable σ o) as [s v|s e| |] eqn:E; cbn in A; try discriminate; injection A as ->.
  - destruct o; cbn [step] in E.
    + apply load_inv in E as (d & _ & _ & _ & _ & (_ & C1 & C2 & (l & Eh & _) & _ & Eg & _) & _).
      intros j d' gs Hj G. destruct (Z.eq_dec j (Z.of_nat (first_free N (st_sets N σ)))) as [->|Hn].
      * replace d' with d in G by congruence. congruence.
      * apply (W j d' gs); auto. now rewrite <- C2.
    + unfold api_save in E. apply lift_done in E as (d & _ & E). destruct (negb _); [discriminate|].
      apply lift_done in E as (t & _ & E). injection E as <- _. exact (sized_ext _ _ eq_refl W).
    + apply unload_inv in E as (d & C & C1 & C2 & Eh & _).
      intros j d' gs Hj G. apply (W j d' gs); auto. rewrite <- C2; auto. intros ->. congruence.
    + injection E as <- _. intros i d gs Hi. exfalso. clear -Hi. apply check_iff in Hi as (_ & Hi). destruct (Z.to_nat i); discriminate Hi.
    + injection E as <- _. exact W.
    + unfold api_info in E. apply lift_done in E as (d & _ & E). injection E as <- _. exact W.
    + injection E as <- _. exact W.
    + unfold api_normalize in E. apply lift_done in E as (d & C & E). apply lift_done in E as (((h & s) & (mn & mx)) & En & E).
      injection E as <- _. eapply sized_put; [exact W|exact C|]. cbn [ds_groups]. intros gs Hg. exact (W _ _ _ C Hg).
    + unfold api_group in E. apply lift_done in E as (d & C & E). destruct (negb _); [discriminate|]. cbn zeta in E.
      destruct (global_group N _ _ _ _ _ _) as [(gs & n)|x| |] eqn:Eg; try discriminate. injection E as <- _. apply group_sized in Eg.
      assert (X : all_sized (put_set N σ i (Some (mkDS N (ds_set N d) (Some gs) (Some threshold))))).
      { rewrite <- (with_heap_id N σ) at 1. eapply sized_put; [exact W|exact C|]. cbn [ds_groups]. intros gs' [= <-]. exact Eg. }
      destruct (2 <=? _); [exact (sized_ext _ _ eq_refl X)|exact X].
    + unfold api_saveGroup in E. apply lift_done in E as (d & _ & E). destruct (ds_groups N d); [|discriminate].
      destruct (negb _); [discriminate|]. apply lift_done in E as (thr & _ & E). apply lift_done in E as (t & _ & E). injection E as <- _.
      exact (sized_ext _ _ eq_refl W).
    + unfold api_loadGroup in E. apply lift_done in E as (d & C & E). destruct (st_files N σ path); [|discriminate].
      apply lift_done in E as ((fin & thr) & _ & E). pose proof (global_load_sized (ds_set N d) fin) as P.
      apply lift_done in E as ((gs & r) & El & E). rewrite El in P. cbn in P. destruct r; [|discriminate].
      injection E as <- _. rewrite <- (with_heap_id N σ) at 1. eapply sized_put; [exact W|exact C|]. cbn [ds_groups]. intros gs' [= <-]. exact P.
    + injection E as <- _. exact (sized_ext _ _ eq_refl W).
    + apply match_inv in E as (d & gs & gs' & c & dq & q & C & _ & _ & Hg & Em & -> & _).
      rewrite <- (with_heap_id N σ) at 1. eapply sized_put; [exact W|exact C|]. cbn [ds_groups]. intros gs1 [= <-].
      apply match_sim in Em as (_ & _ & F). eapply sized_sim; [exact F|]. exact (W _ _ _ C Hg).
    + unfold api_PAA in E. apply lift_done in E as (d & C & E). apply lift_done in E as ((h & s) & En & E).
      injection E as <- _. eapply sized_put; [exact W|exact C|]. cbn [ds_groups]. intros gs Hg. exact (W _ _ _ C Hg).
  - destruct o; try (apply step_exn in E as [->|[(? & ? & X)|((? & ? & ? & X) & _)]]; [exact W|discriminate X|discriminate X]).
    + (* group *) cbn [step] in E. unfold api_group in E. apply lift_exn in E as [(_ & ->)|(d & C & E)]; auto.
      destruct (negb _); [now injection E as <-|]. cbn zeta in E.
      destruct (global_group N _ _ _ _ _ _) as [(gs & n)|x| |]; try discriminate. injection E as <- _.
      rewrite <- (with_heap_id N σ) at 1. eapply sized_put; [exact W|exact C|]. cbn [ds_groups]. intros gs' [= <-]. cbn.
      intros L ls _ E. apply zget_inv in E as (_ & E). destruct (Z.to_nat L); discriminate E.
    + (* loadGroup *) cbn [step] in E. unfold api_loadGroup in E. apply lift_exn in E as [(_ & ->)|(d & C & E)]; auto.
      destruct (st_files N σ path); [|now injection E as <-].
      apply lift_exn in E as [(_ & ->)|((fin & thr) & _ & E)]; auto. pose proof (global_load_sized (ds_set N d) fin) as P.
      apply lift_exn in E as [(_ & ->)|((gs & r) & El & E)]; auto. rewrite El in P. cbn in P.
      destruct r; [discriminate|]. injection E as <- _. rewrite <- (with_heap_id N σ) at 1. eapply sized_put; [exact W|exact C|]. cbn [ds_groups]. intros gs' [= <-]. exact P.
Qed.
Theorem reach_sized σ : reachable N IO writable σ -> all_sized σ.
Proof.
  intros (files & ops & R).
  assert (G : forall ops σ0, all_sized σ0 -> run N IO writable σ0 ops = Some σ -> all_sized σ).
  { clear. induction ops as [|o ops IH]; intros σ0 W R; cbn in R; [now injection R as <-|].
    destruct (after N (step N IO writable σ0 o)) eqn:A; [|discriminate]. eapply IH; [|exact R]. eapply step_sized; eauto. }
  refine (G _ _ _ R). intros i d gs Hi. exfalso. apply check_iff in Hi as (_ & Hi). destruct (Z.to_nat i); discriminate Hi.
Qed.
End Reach.
