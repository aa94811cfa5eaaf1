(** * The order in which lengths are visited (GlobalGroupSpace.cpp:116-153). *)
From Coq Require Import ZArith Bool Lia List Sorted.
From Verif Require Import Outcome Num Lemire Distance Groups.
Import ListNotations.
Open Scope Z_scope.

Section Traverse.
Context (N : NumOps).
Local Notation T := (num N).

Lemma while_term {S} (m : S -> nat) (cond : S -> bool) (body : S -> outcome S) : forall fuel s,
  (m s <= fuel)%nat ->
  (forall t, cond t = true -> (0 < m t)%nat /\ match body t with Ok t' => (m t' < m t)%nat | NoFuel => False | _ => True end) ->
  while_ fuel (fun s => Ok (cond s)) body s <> NoFuel.
Proof.
  induction fuel as [|fuel IH]; intros s Hm Hb; cbn [while_ bind].
  - destruct (cond s) eqn:E; [|discriminate]. destruct (Hb s E). lia.
  - destruct (cond s) eqn:E; [|discriminate]. pose proof (Hb s E) as (_ & H). destruct (body s) as [t'| | |]; cbn; try discriminate; try contradiction.
    apply IH; auto. lia.
Qed.

Definition tmeasure (n : Z) (st : to_state) : nat :=
  let '(_, low, high, ls, hs) := st in
  ((if (ls : bool) then 0 else Z.to_nat low + 1) + (if (hs : bool) then 0 else Z.to_nat (n - high + 1) + 1))%nat.

Lemma band_fuel ratio k : calculateWarpingBandSize N ratio k <> NoFuel.
Proof.
  unfold calculateWarpingBandSize, floor_int. destruct nfloor; cbn; [|discriminate].
  destruct (_ && _); cbn; discriminate.
Qed.

Lemma traverse_terminates ratio q n : generateTraverseOrder N ratio q n <> NoFuel.
Proof.
  unfold generateTraverseOrder.
  match goal with |- bind (while_ ?f _ ?b ?s) _ <> _ =>
    assert (H : while_ f (fun st : to_state => let '(_, _, _, ls, hs) := st in Ok (negb (ls && hs))) b s <> NoFuel) end.
  { match goal with |- while_ ?f _ ?b ?s <> _ =>
      assert (E : while_ f (fun st : to_state => let '(_, _, _, ls, hs) := st in Ok (negb (ls && hs))) b s =
                  while_ f (fun st : to_state => Ok (let '(_, _, _, ls, hs) := st in negb (ls && hs))) b s) end.
    { generalize (traverse_fuel q n) ([q], q - 1, q + 1, false, false). intros f. induction f as [|f IH]; intros [[[[o lo] hi] ls] hs]; cbn [while_ bind].
      - reflexivity.
      - destruct (negb (ls && hs)); auto. destruct traverse_body; cbn; auto. }
    rewrite E. apply (while_term (tmeasure n)).
    - unfold tmeasure, traverse_fuel. cbv iota. lia.
    - intros [[[[o lo] hi] ls] hs] Hc. unfold traverse_body, tmeasure.
      split. { destruct ls, hs; try discriminate; lia. }
      destruct ls; cbn [orb negb].
      + destruct hs; [discriminate|]. cbn [orb negb bind].
        destruct (Z.ltb_spec n hi); cbn [negb bind]; [lia|].
        pose proof (band_fuel ratio hi). destruct calculateWarpingBandSize; cbn [bind]; auto.
        destruct (_ <=? _); cbn [bind]; lia.
      + destruct (Z.ltb_spec lo 2); cbn [negb bind].
        * destruct hs; cbn [orb negb bind]; [lia|].
          destruct (Z.ltb_spec n hi); cbn [negb bind]; [lia|].
          pose proof (band_fuel ratio hi). destruct calculateWarpingBandSize; cbn [bind]; auto.
          destruct (_ <=? _); cbn [bind]; lia.
        * pose proof (band_fuel ratio q). destruct (calculateWarpingBandSize N ratio q) as [r| | |]; cbn [bind]; auto.
          destruct (q <=? lo + r); cbn [bind].
          -- destruct hs; cbn [orb negb bind]; [lia|].
             destruct (Z.ltb_spec n hi); cbn [negb bind]; [lia|].
             pose proof (band_fuel ratio hi). destruct calculateWarpingBandSize; cbn [bind]; auto.
             destruct (_ <=? _); cbn [bind]; lia.
          -- destruct hs; cbn [orb negb bind]; [lia|].
             destruct (Z.ltb_spec n hi); cbn [negb bind]; [lia|].
             pose proof (band_fuel ratio hi). destruct calculateWarpingBandSize; cbn [bind]; auto.
             destruct (_ <=? _); cbn [bind]; lia. }
  intros Q. apply H. destruct (while_ _ _ _ _) as [[[[[o lo] hi] ls] hs]| | |]; cbn in Q; try discriminate; auto.
Qed.

(** ** What the order contains. *)
Section Order.
Context (ratio : T) (q n : Z) (bw : Z -> Z).
Hypothesis Hq : 1 <= q.
Hypothesis Hbw : forall k, 1 <= k <= Z.max q n -> calculateWarpingBandSize N ratio k = Ok (bw k).

Definition tinv (st : to_state) : Prop :=
  let '(order, low, high, ls, hs) := st in
  (exists l, order = q :: l) /\
  NoDup order /\
  (forall L, In L order <-> low < L < high) /\
  low < q < high /\ Z.min 1 (q - 1) <= low /\ high <= Z.max (q + 1) (n + 1) /\
  StronglySorted Z.gt (filter (fun L => L <? q) order) /\
  StronglySorted Z.lt (filter (fun L => q <? L) order) /\
  (forall L, low < L < q -> q <= L + bw q) /\
  (forall L, q < L < high -> L <= q + bw L) /\
  (ls = true -> low < 2 \/ low + bw q < q) /\
  (hs = true -> n < high \/ q + bw high < high).

Lemma SS_snoc {A} (R : A -> A -> Prop) l x : StronglySorted R l -> Forall (fun y => R y x) l -> StronglySorted R (l ++ [x]).
Proof.
  induction 1 as [|y l Hs IH Hy]; intros Hx; cbn.
  - constructor; constructor.
  - inversion Hx; subst. constructor; auto. apply Forall_app. split; auto.
Qed.
Lemma NoDup_snoc {A} (l : list A) x : NoDup l -> ~ In x l -> NoDup (l ++ [x]).
Proof.
  intros H Hx. apply NoDup_rev in H. rewrite <- (rev_involutive l). change [x] with (rev [x]).
  rewrite <- rev_app_distr. apply NoDup_rev. cbn. constructor; auto. now rewrite <- in_rev.
Qed.

(** Appending [low] / [high]. *)
Lemma tinv_low o lo hi ls hs : tinv (o, lo, hi, ls, hs) -> 2 <= lo -> q <= lo + bw q ->
  tinv (o ++ [lo], lo - 1, hi, ls, hs).
Proof.
  intros ((l & El) & Hnd & Hin & Hlh & Hlo & Hhi & S1 & S2 & B1 & B2 & P1 & P2) Hl Hb. unfold tinv.
  split; [exists (l ++ [lo]); now rewrite El|].
  split. { apply NoDup_snoc; auto. rewrite Hin. lia. }
  split. { intros L. rewrite in_app_iff, Hin. cbn. lia. }
  split; [lia|]. split; [lia|]. split; [lia|].
  rewrite !filter_app. cbn [filter]. destruct (Z.ltb_spec lo q); [|lia]. destruct (Z.ltb_spec q lo); [lia|].
  split. { apply SS_snoc; auto. apply Forall_forall. intros y Hy. apply filter_In in Hy. destruct Hy as (Hy & _).
           apply Hin in Hy. lia. }
  split. { now rewrite app_nil_r. }
  split. { intros L HL. destruct (Z.eq_dec L lo) as [->|]; auto. apply B1. lia. }
  split; auto. split; auto. intros E. destruct (P1 E); lia.
Qed.
Lemma tinv_high o lo hi ls hs : tinv (o, lo, hi, ls, hs) -> hi <= n -> hi <= q + bw hi -> hs = false ->
  tinv (o ++ [hi], lo, hi + 1, ls, hs).
Proof.
  intros ((l & El) & Hnd & Hin & Hlh & Hlo & Hhi & S1 & S2 & B1 & B2 & P1 & P2) Hl Hb Hs. unfold tinv.
  split; [exists (l ++ [hi]); now rewrite El|].
  split. { apply NoDup_snoc; auto. rewrite Hin. lia. }
  split. { intros L. rewrite in_app_iff, Hin. cbn. lia. }
  split; [lia|]. split; [lia|]. split; [lia|].
  rewrite !filter_app. cbn [filter]. destruct (Z.ltb_spec hi q); [lia|]. destruct (Z.ltb_spec q hi); [|lia].
  split. { now rewrite app_nil_r. }
  split. { apply SS_snoc; auto. apply Forall_forall. intros y Hy. apply filter_In in Hy. destruct Hy as (Hy & _).
           apply Hin in Hy. lia. }
  split; auto.
  split. { intros L HL. destruct (Z.eq_dec L hi) as [->|]; auto. apply B2. lia. }
  split; auto. intros E; congruence.
Qed.
Lemma tinv_stop o lo hi ls hs ls' hs' : tinv (o, lo, hi, ls, hs) ->
  (ls' = true -> ls = true \/ lo < 2 \/ lo + bw q < q) -> (hs' = true -> hs = true \/ n < hi \/ q + bw hi < hi) ->
  tinv (o, lo, hi, ls', hs').
Proof.
  intros (H1 & Hnd & Hin & Hlh & Hlo & Hhi & S1 & S2 & B1 & B2 & P1 & P2) Hl Hs. unfold tinv.
  split; [auto|]. split; [auto|]. split; [auto|]. split; [auto|]. split; [auto|]. split; [auto|]. split; [auto|]. split; [auto|].
  split; [auto|]. split; [auto|]. split.
  - intros E. destruct (Hl E) as [E'|E']; auto.
  - intros E. destruct (Hs E) as [E'|E']; auto.
Qed.

Lemma body_inv t : tinv t -> (let '(_, _, _, ls, hs) := t in negb (ls && hs)) = true ->
  Post (traverse_body N ratio q n t) (fun t' => tinv t' /\ (tmeasure n t' < tmeasure n t)%nat).
Proof.
  destruct t as [[[[o lo] hi] ls] hs]. intros HI Hc. unfold traverse_body.
  set (ls1 := ls || (lo <? 2)). set (hs1 := hs || (n <? hi)).
  assert (H1 : tinv (o, lo, hi, ls1, hs1)).
  { apply (tinv_stop _ _ _ ls hs); auto; unfold ls1, hs1.
    - destruct ls; auto. destruct (Z.ltb_spec lo 2); auto; discriminate.
    - destruct hs; auto. destruct (Z.ltb_spec n hi); auto; discriminate. }
  assert (M1 : (tmeasure n (o, lo, hi, ls1, hs1) <= tmeasure n (o, lo, hi, ls, hs))%nat).
  { unfold tmeasure, ls1, hs1. destruct ls, hs, (lo <? 2), (n <? hi); cbn; lia. }
  assert (Hrange : lo < q < hi /\ hi <= Z.max (q + 1) (n + 1) /\ Z.min 1 (q - 1) <= lo) by (unfold tinv in H1; intuition).
  (* low part *)
  apply (Post_seq (fun s => let '(o', lo', ls') := s in tinv (o', lo', hi, ls', hs1) /\
      (tmeasure n (o', lo', hi, ls', hs1) <= tmeasure n (o, lo, hi, ls1, hs1))%nat /\
      (ls1 = false -> (tmeasure n (o', lo', hi, ls', hs1) < tmeasure n (o, lo, hi, ls1, hs1))%nat))).
  { destruct ls1 eqn:E1; cbn [negb].
    - apply Post_Ok. split; [auto|]. split; [lia|discriminate].
    - assert (2 <= lo). { unfold ls1 in E1. apply orb_false_iff in E1. destruct E1 as (_ & E1). apply Z.ltb_ge in E1. lia. }
      rewrite (Hbw q) by lia. cbn [bind]. destruct (Z.leb_spec q (lo + bw q)).
      + apply Post_Ok. split; [|unfold tmeasure; destruct hs1; lia]. apply tinv_low; auto.
      + apply Post_Ok. split; [|unfold tmeasure; destruct hs1; lia].
        apply (tinv_stop _ _ _ false hs1); auto; intros; right; right; lia. }
  intros [[o' lo'] ls'] (H2 & M2 & M2').
  assert (Hrange2 : hi <= Z.max (q + 1) (n + 1)) by lia.
  apply (Post_seq (fun s => let '(o2, hi2, hs2) := s in tinv (o2, lo', hi2, ls', hs2) /\
      (tmeasure n (o2, lo', hi2, ls', hs2) <= tmeasure n (o', lo', hi, ls', hs1))%nat /\
      (hs1 = false -> (tmeasure n (o2, lo', hi2, ls', hs2) < tmeasure n (o', lo', hi, ls', hs1))%nat))).
  { destruct hs1 eqn:E1; cbn [negb].
    - apply Post_Ok. split; [auto|]. split; [lia|discriminate].
    - assert (hi <= n). { unfold hs1 in E1. apply orb_false_iff in E1. destruct E1 as (_ & E1). apply Z.ltb_ge in E1. lia. }
      rewrite (Hbw hi) by lia. cbn [bind]. destruct (Z.leb_spec hi (q + bw hi)).
      + apply Post_Ok. split; [|unfold tmeasure; destruct ls'; lia]. apply tinv_high; auto.
      + apply Post_Ok. split; [|unfold tmeasure; destruct ls'; lia].
        apply (tinv_stop _ _ _ ls' false); auto; intros; right; right; lia. }
  intros [[o2 hi2] hs2] (H3 & M3 & M3'). apply Post_Ok. split; auto.
  destruct ls1 eqn:E1, hs1 eqn:E2; try (specialize (M2' eq_refl)); try (specialize (M3' eq_refl)); try lia.
  (* both stopped: the test of line 127 set a flag *)
  assert (tmeasure n (o, lo, hi, true, true) < tmeasure n (o, lo, hi, ls, hs))%nat; [|lia].
  unfold tmeasure. destruct ls, hs; cbn in Hc; try discriminate; lia.
Qed.

Lemma traverse_inv : exists order, generateTraverseOrder N ratio q n = Ok order /\
  exists lo hi, tinv (order, lo, hi, true, true).
Proof.
  unfold generateTraverseOrder.
  match goal with |- exists o, bind ?w _ = _ /\ _ => assert (H : Post w (fun t => tinv t /\ (let '(_, _, _, ls, hs) := t in negb (ls && hs)) = false)) end.
  { eapply Post_conseq.
    - apply (while_rule tinv (tmeasure n)).
      + unfold tinv. split; [now exists []|]. split; [constructor; auto; constructor|].
        split. { intros L; cbn. lia. } split; [lia|]. split; [lia|]. split; [lia|].
        cbn [filter]. rewrite Z.ltb_irrefl. split; [constructor|]. split; [constructor|].
        split; [lia|]. split; [lia|]. split; discriminate.
      + unfold tmeasure, traverse_fuel. lia.
      + intros [[[[o lo] hi] ls] hs] HI. apply Post_Ok. intros Hc. apply body_inv; auto.
    - intros [[[[o lo] hi] ls] hs] (HI & Hc). split; auto. congruence. }
  destruct (Post_inv _ _ H) as ([[[[o lo] hi] ls] hs] & -> & HI & Hc). cbn [bind].
  exists o. split; auto. exists lo, hi. destruct ls, hs; try discriminate. exact HI.
Qed.

(** Everything but completeness needs nothing of the band sizes. *)
Lemma traverse_sound order : generateTraverseOrder N ratio q n = Ok order ->
  hd_error order = Some q /\ NoDup order /\
  (forall L, In L order -> L = q \/ (2 <= L <= Z.max q n /\ Z.abs (L - q) <= bw (Z.max L q))) /\
  StronglySorted Z.gt (filter (fun L => L <? q) order) /\
  StronglySorted Z.lt (filter (fun L => q <? L) order).
Proof.
  intros E. destruct traverse_inv as (o & E' & lo & hi & HI). rewrite E in E'. injection E' as <-.
  destruct HI as ((l & El) & Hnd & Hin & Hlh & Hlo & Hhi & S1 & S2 & B1 & B2 & P1 & P2).
  split; [now rewrite El|]. split; [auto|]. split; [|auto].
  intros L HL. apply Hin in HL. destruct (Z.eq_dec L q) as [|Hne]; [now left|right].
  destruct (Z_lt_ge_dec L q).
  - specialize (B1 L ltac:(lia)). rewrite (Z.max_r L q) by lia. lia.
  - specialize (B2 L ltac:(lia)). rewrite (Z.max_l L q) by lia. lia.
Qed.

(** Completeness: the gap [L - band(L)] must not shrink. *)
Hypothesis Hgap : forall k, 1 <= k -> k + 1 <= Z.max q n -> bw (k + 1) <= bw k + 1.
Lemma gap_le k d : 1 <= k -> 0 <= d -> k + d <= Z.max q n -> bw (k + d) <= bw k + d.
Proof.
  intros Hk Hd. pattern d. apply natlike_ind; auto.
  - rewrite !Z.add_0_r. lia.
  - intros x Hx IH Hm. replace (k + Z.succ x) with (k + x + 1) by lia. specialize (Hgap (k + x)). lia.
Qed.
Lemma traverse_complete order L : generateTraverseOrder N ratio q n = Ok order ->
  2 <= L <= n -> Z.abs (L - q) <= bw (Z.max L q) -> In L order.
Proof.
  intros E HL HB. destruct traverse_inv as (o & E' & lo & hi & HI). rewrite E in E'. injection E' as <-.
  destruct HI as ((l & El) & Hnd & Hin & Hlh & Hlo & Hhi & S1 & S2 & B1 & B2 & P1 & P2).
  apply Hin. specialize (P1 eq_refl). specialize (P2 eq_refl).
  destruct (Z_lt_ge_dec L q).
  - rewrite (Z.max_r L q) in HB by lia. split; [|lia]. destruct P1; lia.
  - split; [lia|]. rewrite (Z.max_l L q) in HB by lia. destruct P2 as [P2|P2]; [lia|].
    destruct (Z_lt_ge_dec L hi); auto. exfalso.
    pose proof (gap_le hi (L - hi) ltac:(lia) ltac:(lia)) as G. replace (hi + (L - hi)) with L in G by lia. lia.
Qed.
End Order.
End Traverse.
