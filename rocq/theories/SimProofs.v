(** * A match changes nothing but the cached envelopes, whatever the numbers are. *)
From Coq Require Import ZArith Bool Lia String List.
From Verif Require Import Outcome Num Lemire Distance TimeSeries Text Dataset Groups TsProofs GroupProofs.
Import ListNotations.
Open Scope Z_scope.

(** What is preserved by the iterations that return is preserved by the loop that returns. *)
Lemma for_Ok_inv {S} (P : S -> Prop) (body : Z -> S -> outcome S) lo hi s s' :
  for_ lo hi body s = Ok s' -> P s -> (forall i t t', lo <= i < hi -> body i t = Ok t' -> P t -> P t') -> P s'.
Proof.
  unfold for_. intros E H0 Hb.
  assert (G : forall n i s, (i + Z.of_nat n <= Z.max lo hi)%Z -> lo <= i -> P s -> loop n i body s = Ok s' -> P s').
  { induction n as [|n IH]; intros i t Hi Hlo Ht En; cbn in En; [now injection En as <-|].
    apply bind_Ok_inv in En as (t1 & E1 & En). apply (IH (i + 1) t1); auto; try lia. eapply Hb; eauto. lia. }
  apply (G (Z.to_nat (hi - lo)) lo s); auto; lia.
Qed.
Lemma for_each_Ok_inv {A S} (P : S -> Prop) (body : A -> S -> outcome S) l : forall s s',
  for_each l body s = Ok s' -> P s -> (forall x t t', In x l -> body x t = Ok t' -> P t -> P t') -> P s'.
Proof.
  induction l as [|x l IH]; intros s s' E H0 Hb; cbn in E; [now injection E as <-|].
  apply bind_Ok_inv in E as (t & E1 & E). eapply IH; eauto.
  - eapply Hb; eauto. now left.
  - intros y u u' Hy. apply Hb. now right.
Qed.

Section Sim.
Context (N : NumOps) (h : heap N).
Local Notation T := (num N).

Definition tsim (t t' : ts N) : Prop := same_ts N t t' /\ (cache_ok N h t -> cache_ok N h t').
Lemma tsim_refl t : tsim t t.
Proof. split; [apply same_refl|auto]. Qed.
Lemma tsim_trans t u v : tsim t u -> tsim u v -> tsim t v.
Proof. intros (A & B) (C & D). split; [eapply same_trans; eauto|auto]. Qed.

Lemma envelope_sim t band t' r : ts_envelope N h t band = Ok (t', r) -> tsim t t'.
Proof.
  unfold ts_envelope. intros E.
  assert (G : (v <- ts_read N h t ;; '(l, u) <- generateKeoghLU N v band ;;
      Ok (mkTS (ts_src t) (ts_index t) (ts_start t) (ts_end t) (ts_len t) (Some (mkCache band l u)), (l, u))) = Ok (t', r) -> tsim t t').
  { clear E. intros E. apply bind_Ok_inv in E as (v & Ev & E). apply bind_Ok_inv in E as ((l & u) & El & E).
    injection E as <- _. split; [now repeat split|]. intros _. unfold cache_ok. cbn. exists v. split; auto. }
  destruct (ts_cache t) as [c|]; auto. destruct (kc_band c =? band); auto. injection E as <- _. apply tsim_refl.
Qed.
Lemma keogh_sim ratio a b d a' x : keogh_ts N h ratio a b d = Ok (a', x) -> tsim a a'.
Proof.
  unfold keogh_ts. intros E. apply bind_Ok_inv in E as (w & _ & E). apply bind_Ok_inv in E as ((a1 & (l & u)) & E1 & E).
  apply bind_Ok_inv in E as (bv & _ & E). apply bind_Ok_inv in E as (y & _ & E). injection E as <- _.
  eapply envelope_sim; eauto.
Qed.
Lemma cross_sim ratio a b d a' b' x : crossKeogh_ts N h ratio a b d = Ok (a', b', x) -> tsim a a' /\ tsim b b'.
Proof.
  unfold crossKeogh_ts. intros E. apply bind_Ok_inv in E as ((a1 & y) & E1 & E). apply keogh_sim in E1.
  destruct (nltb N d y).
  - injection E as <- <- _. split; auto. apply tsim_refl.
  - apply bind_Ok_inv in E as ((b1 & z) & E2 & E). injection E as <- <- _. split; auto. eapply keogh_sim; eauto.
Qed.
Lemma cascade_sim ratio a b d a' b' x : cascade_ts N h ratio a b d = Ok (a', b', x) -> tsim a a' /\ tsim b b'.
Proof.
  unfold cascade_ts. intros E. apply bind_Ok_inv in E as (((a1 & b1) & y) & E1 & E). apply cross_sim in E1 as (A & B).
  destruct (nltb N d y); [injection E as <- <- _; auto|].
  apply bind_Ok_inv in E as (av & _ & E). apply bind_Ok_inv in E as (bv & _ & E). apply bind_Ok_inv in E as (z & _ & E).
  injection E as <- <- _. auto.
Qed.

Definition gsim (g g' : group N) : Prop :=
  g_index N g = g_index N g' /\ g_last N g = g_last N g' /\ g_length N g = g_length N g' /\ g_sub N g = g_sub N g' /\
  g_count N g = g_count N g' /\ tsim (g_centroid N g) (g_centroid N g').
Lemma gsim_refl g : gsim g g.
Proof. repeat split; auto. Qed.
Lemma gsim_trans g1 g2 g3 : gsim g1 g2 -> gsim g2 g3 -> gsim g1 g3.
Proof.
  intros (A & B & C & D & E & F) (A' & B' & C' & D' & E' & F'). do 5 (split; [congruence|]). eapply tsim_trans; eauto.
Qed.

Definition lsim (l l' : lspace N) : Prop :=
  ls_length N l = ls_length N l' /\ ls_sub N l = ls_sub N l' /\ ls_map N l = ls_map N l' /\
  Forall2 gsim (ls_groups N l) (ls_groups N l').
Definition osim (o o' : option (lspace N)) : Prop :=
  match o, o' with None, None => True | Some l, Some l' => lsim l l' | _, _ => False end.

Lemma Forall2_refl {A} (R : A -> A -> Prop) (HR : forall x, R x x) l : Forall2 R l l.
Proof. induction l; constructor; auto. Qed.
Lemma Forall2_trans {A} (R : A -> A -> Prop) (HR : forall x y z, R x y -> R y z -> R x z) l1 : forall l2 l3,
  Forall2 R l1 l2 -> Forall2 R l2 l3 -> Forall2 R l1 l3.
Proof.
  induction l1 as [|x l1 IH]; intros l2 l3 H1 H2; inversion H1; subst; inversion H2; subst; constructor; eauto.
Qed.
Lemma Forall2_zset {A} (R : A -> A -> Prop) (HR : forall x, R x x) l i a x l' :
  zget l i = Ok a -> zset l i x = Ok l' -> R a x -> Forall2 R l l'.
Proof.
  intros Ha E Hx. apply zget_inv in Ha as (_ & Ha). apply zset_inv in E as (_ & ->).
  revert Ha. generalize (Z.to_nat i). induction l as [|y l IH]; intros [|n] H; cbn in *; try discriminate.
  - injection H as ->. constructor; auto. now apply Forall2_refl.
  - constructor; auto.
Qed.
Lemma Forall2_zget {A} (R : A -> A -> Prop) l l' i x' : Forall2 R l l' -> zget l' i = Ok x' -> exists x, zget l i = Ok x /\ R x x'.
Proof.
  unfold zget. destruct (i <? 0); [discriminate|]. generalize (Z.to_nat i). intros n H. revert n.
  induction H as [|a b l l' Hab H IH]; intros [|n]; cbn; try discriminate; [|apply IH].
  intros E. injection E as <-. eauto.
Qed.
Lemma Forall2_zget_l {A} (R : A -> A -> Prop) l l' i x : Forall2 R l l' -> zget l i = Ok x -> exists x', zget l' i = Ok x' /\ R x x'.
Proof.
  unfold zget. destruct (i <? 0); [discriminate|]. generalize (Z.to_nat i). intros n H. revert n.
  induction H as [|a b l l' Hab H IH]; intros [|n]; cbn; try discriminate; [|apply IH].
  intros E. injection E as <-. eauto.
Qed.
Lemma Forall2_zlen {A B} (R : A -> B -> Prop) l l' : Forall2 R l l' -> zlen l = zlen l'.
Proof. intros H. unfold zlen. f_equal. induction H; cbn; auto. Qed.

Lemma lsim_refl l : lsim l l.
Proof. repeat split. apply Forall2_refl, gsim_refl. Qed.
Lemma lsim_trans l1 l2 l3 : lsim l1 l2 -> lsim l2 l3 -> lsim l1 l3.
Proof.
  intros (A & B & C & D) (A' & B' & C' & D'). do 3 (split; [congruence|]). exact (Forall2_trans gsim gsim_trans _ _ _ D D').
Qed.
Lemma osim_refl o : osim o o.
Proof. destruct o; cbn; auto. apply lsim_refl. Qed.
Lemma osim_trans a b c : osim a b -> osim b c -> osim a c.
Proof. destruct a, b, c; cbn; try tauto. apply lsim_trans. Qed.

Lemma getBestGroup_sim ratio ls q d ls' q' gi x : getBestGroup N h ratio ls q d = Ok (ls', q', gi, x) -> lsim ls ls'.
Proof.
  unfold getBestGroup. intros E. apply bind_Ok_inv in E as ((((gr & q1) & bd) & bg) & E1 & E). injection E as <- _ _ _.
  split; [reflexivity|]. split; [reflexivity|]. split; [reflexivity|]. cbn [ls_groups].
  pose proof (for_Ok_inv (fun st : bg_state N => Forall2 gsim (ls_groups N ls) (fst (fst (fst st)))) _ _ _ _ _ E1) as H.
  cbn [fst] in H. apply H; [apply Forall2_refl, gsim_refl|].
  intros i (((g1 & q2) & d1) & b1) t' _ Es Hs. cbn [fst] in Hs. unfold best_group_step in Es.
  apply bind_Ok_inv in Es as (g & Eg & Es). apply bind_Ok_inv in Es as (((c & q3) & d2) & Ec & Es).
  apply bind_Ok_inv in Es as (g2 & Eg2 & Es). apply cascade_sim in Ec as (Ec & _).
  assert (X : Forall2 gsim (ls_groups N ls) g2).
  { eapply Forall2_trans; [apply gsim_trans|exact Hs|]. apply (Forall2_zset gsim gsim_refl _ _ _ _ _ Eg Eg2).
    do 5 (split; [reflexivity|]). exact Ec. }
  destruct (nltb N d2 d1); injection Es as <-; exact X.
Qed.

Definition gspsim (gs gs' : gspace N) : Prop :=
  gs_name N gs = gs_name N gs' /\ gs_kind N gs = gs_kind N gs' /\ Forall2 osim (gs_spaces N gs) (gs_spaces N gs').
Lemma gspsim_refl gs : gspsim gs gs.
Proof. repeat split. apply Forall2_refl, osim_refl. Qed.
Lemma gspsim_trans a b c : gspsim a b -> gspsim b c -> gspsim a c.
Proof. intros (A & B & C) (A' & B' & C'). do 2 (split; [congruence|]). exact (Forall2_trans osim osim_trans _ _ _ C C'). Qed.

Lemma match_sim ratio s gs q gs' c : global_getBestMatch N h ratio s gs q = Ok (gs', c) -> gspsim gs gs'.
Proof.
  unfold global_getBestMatch. destruct (_ <=? 1); [discriminate|]. intros E.
  apply bind_Ok_inv in E as (order & _ & E). apply bind_Ok_inv in E as ((((sp & q1) & bd) & bg) & E1 & E).
  assert (X : Forall2 osim (gs_spaces N gs) sp).
  { pose proof (for_each_Ok_inv (fun st : gm_state N => Forall2 osim (gs_spaces N gs) (fst (fst (fst st)))) _ _ _ _ E1) as H.
    cbn [fst] in H. apply H; [apply Forall2_refl, osim_refl|].
    intros i (((g1 & q2) & d1) & b1) t' _ Es Hs. cbn [fst] in Hs. unfold global_match_step in Es.
    apply bind_Ok_inv in Es as (o & Eo & Es). destruct o as [ls|]; [|discriminate].
    apply bind_Ok_inv in Es as ((((ls' & q3) & gi) & d2) & Eb & Es). apply bind_Ok_inv in Es as (g2 & Eg2 & Es).
    apply getBestGroup_sim in Eb.
    assert (Y : Forall2 osim (gs_spaces N gs) g2).
    { eapply Forall2_trans; [apply osim_trans|exact Hs|]. apply (Forall2_zset osim osim_refl _ _ _ _ _ Eo Eg2). exact Eb. }
    destruct (nltb N d2 d1); injection Es as <-; exact Y. }
  destruct bg as [(l & gi)|]; [|discriminate]. apply bind_Ok_inv in E as (o & _ & E). destruct o as [ls|]; [|discriminate].
  apply bind_Ok_inv in E as (g & _ & E). apply bind_Ok_inv in E as (c' & _ & E). injection E as <- _.
  repeat split. exact X.
Qed.

(** The description of a space by its members survives. *)
Lemma ls_ok_sim s b L ls ls' gm : lsim ls ls' -> ls_ok N h s b L ls gm -> ls_ok N h s b L ls' gm.
Proof.
  intros (A & B & C & D) (H1 & H2 & H3 & H4 & H5 & H6). unfold ls_ok.
  rewrite <- A, <- B, <- C, <- (Forall2_zlen _ _ _ D). do 4 (split; [assumption|]). split; auto.
  intros i g' ms Hg Hm. destruct (Forall2_zget _ _ _ _ _ D Hg) as (g & Eg & S).
  destruct (H5 i g ms Eg Hm) as (K1 & K2 & K3 & K4 & K5 & K6 & K7 & K8 & K9).
  destruct S as (S1 & S2 & S3 & S4 & S5 & S6 & S7). unfold grp_ok. rewrite <- S1, <- S2, <- S3, <- S4, <- S5.
  do 6 (split; [assumption|]). split; [eapply same_trans; [apply same_sym; eauto|auto]|]. split; auto.
Qed.
(** So it does when other buffers change. *)
Lemma ls_ok_heap h' s b L ls gm : heap_get N h' b = heap_get N h b ->
  ls_ok N h s b L ls gm -> ls_ok N h' s b L ls gm.
Proof.
  intros E (H1 & H2 & H3 & H4 & H5 & H6). unfold ls_ok. do 4 (split; [assumption|]). split; auto.
  intros i g ms Hg Hm. destruct (H5 i g ms Hg Hm) as (K1 & K2 & K3 & K4 & K5 & K6 & K7 & K8 & K9).
  unfold grp_ok. do 7 (split; [assumption|]). split; auto. unfold cache_ok in *. destruct (ts_cache _); auto.
  destruct K8 as (v & Hv & Ev). exists v. split; auto. unfold ts_read in *.
  destruct K7 as (Es & _). rewrite Es in Hv |- *. cbn [ts_src view] in *. now rewrite E.
Qed.
End Sim.
