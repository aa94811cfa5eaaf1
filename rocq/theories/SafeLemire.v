(** * lower_upper_lemire on arbitrary numbers: no assumption on the comparison, so that a series may hold NaN. *)
From Coq Require Import ZArith Bool Lia List Sorted.
From Verif Require Import Outcome Num Deque Lemire Spec DequeProofs LemireProofs.
Import ListNotations.
Open Scope Z_scope.

Section Lem.
Context (N : NumOps).
Local Notation T := (num N).
Context (t : list T) (r : Z).
Local Notation len := (zlen t).
Hypothesis Hr : 0 <= r <= len - 1.
Local Notation v := (at_ N t).

(** Indices of a queue: increasing, within [lo, hi], the last is [hi]. *)
Definition G (x y : Z) : Prop := True.
Lemma G_trans x y z : 0 <= x < len -> 0 <= y < len -> 0 <= z < len -> G x y -> G y z -> G x z.
Proof. easy. Qed.
Lemma G_refl x : 0 <= x < len -> G x x.
Proof. easy. Qed.
Lemma at_get i : 0 <= i < len -> zget t i = Ok (v i).
Proof. intros. now apply zget_nth. Qed.

Lemma pop_while_any g i lo hi d q q0 : 0 <= lo -> hi < len -> 0 <= i < len -> dq_repr d q ->
  mq G lo hi (q ++ q0) ->
  Post (pop_while N t (v i) g d) (fun d' => exists q2 popped, q = q2 ++ popped /\ dq_repr d' q2 /\ dq_cap d' = dq_cap d).
Proof.
  intros Hlo Hhi Hi Hd Hm. unfold pop_while.
  eapply Post_conseq.
  - apply (while_rule (fun d' => exists q2 popped, q = q2 ++ popped /\ dq_repr d' q2 /\ dq_cap d' = dq_cap d) (fun d' => Z.to_nat (dq_size d'))).
    + exists q, []. rewrite app_nil_r. auto.
    + reflexivity.
    + intros d' (q2 & popped & E & Hd' & Hcap).
      destruct (dq_empty d') eqn:Ee; [cbn; discriminate|].
      assert (Hne : q2 <> []). { intros ->. rewrite (proj2 (dq_empty_repr _ _ Hd') eq_refl) in Ee. discriminate. }
      destruct (exists_last Hne) as (q3 & x & ->).
      assert (Hx : lo <= x <= hi).
      { apply (proj1 Hm). subst q. apply in_or_app; left. apply in_or_app; left. apply in_or_app; right; now left. }
      rewrite (dq_back_repr _ _ _ Hd'). cbn [bind]. rewrite at_get by lia. cbn [bind Post wp].
      intros Hb. destruct (dq_pop_back_repr _ _ _ Hd') as (d2 & E2 & Hd2 & Hc2). rewrite E2. cbn.
      split.
      * exists q3, (x :: popped). rewrite E, <- app_assoc. cbn. split; [auto|split; [auto|congruence]].
      * destruct Hd2 as (_ & _ & _ & S2 & _). destruct Hd' as (_ & _ & _ & S' & _).
        rewrite S2, S', zlen_snoc. pose proof (zlen_nonneg q3). lia.
  - intros d' (H & _). exact H.
Qed.

(** Emitted cells: each is one of the values of its window. *)
Definition of_window (k : Z) (x : T) := exists j, Z.max 0 (k - r) <= j <= Z.min (len - 1) (k + r) /\ x = v j.
Definition emitted_any (K : Z) (s : lem_state N) : Prop :=
  zlen (lem_l N s) = len /\ zlen (lem_u N s) = len /\
  forall k, 0 <= k < K -> k < len ->
    (exists x, zget (lem_l N s) k = Ok (Some x) /\ of_window k x) /\
    (exists x, zget (lem_u N s) k = Ok (Some x) /\ of_window k x).

Lemma emit_any i hi s qu ql : 0 <= i - r - 1 < len -> hi = Z.min (len - 1) (i - 1) ->
  dq_repr (lem_du N s) qu -> dq_repr (lem_dl N s) ql ->
  mq G (Z.max 0 (i - 1 - 2 * r)) hi qu -> mq G (Z.max 0 (i - 1 - 2 * r)) hi ql ->
  emitted_any (i - r - 1) s ->
  Post (emit N t (i - r - 1) s) (fun s' => emitted_any (i - r) s' /\ lem_du N s' = lem_du N s /\ lem_dl N s' = lem_dl N s).
Proof.
  intros Hk Hhi Hu Hl Mu Ml (L1 & L2 & He). unfold emit.
  set (k := i - r - 1) in *. set (lo := Z.max 0 (i - 1 - 2 * r)) in *.
  assert (lo <= hi) by lia.
  destruct qu as [|fu qu]; [elim (mq_lower _ _ _ _ H Mu); auto|].
  destruct ql as [|fl ql]; [elim (mq_lower _ _ _ _ H Ml); auto|].
  pose proof (proj1 Mu fu ltac:(now left)) as Ru. pose proof (proj1 Ml fl ltac:(now left)) as Rl.
  rewrite (dq_front_repr _ _ _ Hu). cbn [bind]. rewrite at_get by lia. cbn [bind].
  assert (Eu : zset (lem_u N s) k (Some (v fu)) = Ok (list_set (lem_u N s) (Z.to_nat k) (Some (v fu))))
    by (apply zset_Ok; lia). rewrite Eu. cbn [bind].
  rewrite (dq_front_repr _ _ _ Hl). cbn [bind]. rewrite at_get by lia. cbn [bind].
  assert (El : zset (lem_l N s) k (Some (v fl)) = Ok (list_set (lem_l N s) (Z.to_nat k) (Some (v fl))))
    by (apply zset_Ok; lia). rewrite El. cbn [bind Post wp lem_du lem_dl]. split; auto.
  split; [|split]; cbn [lem_l lem_u].
  - now rewrite (zset_len _ _ _ _ El).
  - now rewrite (zset_len _ _ _ _ Eu).
  - intros k' Hk' Hk''. destruct (Z.eq_dec k k') as [<-|Hne].
    + rewrite (zget_zset_eq _ _ _ _ El), (zget_zset_eq _ _ _ _ Eu).
      split; (eexists; split; [reflexivity|]); (eexists; split; [|reflexivity]; lia).
    + rewrite (zget_zset_neq _ _ _ _ _ El Hne), (zget_zset_neq _ _ _ _ _ Eu Hne). apply He; lia.
Qed.

Definition inv1_any (i : Z) (s : lem_state N) : Prop :=
  emitted_any (i - r - 1) s /\
  exists qu ql, dq_repr (lem_du N s) qu /\ dq_repr (lem_dl N s) ql /\
    dq_cap (lem_du N s) = 2 * r + 2 /\ dq_cap (lem_dl N s) = 2 * r + 2 /\
    mq G (Z.max 0 (i - 1 - 2 * r)) (i - 1) qu /\ mq G (Z.max 0 (i - 1 - 2 * r)) (i - 1) ql /\
    (forall x, In x qu -> In x ql -> x = i - 1).

Lemma body1_any i s : 1 <= i < len -> inv1_any i s -> Post (lem_body1 N t r i s) (inv1_any (i + 1)).
Proof.
  intros Hi (He & qu & ql & Hu & Hl & Cu & Cl & Mu & Ml & Hsh). unfold lem_body1.
  eapply (Post_seq (fun s' => emitted_any (i - r) s' /\ lem_du N s' = lem_du N s /\ lem_dl N s' = lem_dl N s)).
  { destruct (r <? i) eqn:E.
    - eapply emit_any with (hi := i - 1); eauto; lia.
    - cbn. split; auto. destruct He as (E1 & E2 & _). split; auto. split; auto. intros; lia. }
  intros s1 (He1 & Du1 & Dl1). rewrite !at_get by lia. cbn [bind].
  set (lo := Z.max 0 (i - 1 - 2 * r)) in *.
  destruct (mq_last G lo (i - 1) qu ltac:(lia) Mu) as (qu1 & Equ).
  destruct (mq_last G lo (i - 1) ql ltac:(lia) Ml) as (ql1 & Eql).
  eapply (Post_seq (fun s' => emitted_any (i - r) s' /\
     exists qu2 ql2, dq_repr (lem_du N s') qu2 /\ dq_repr (lem_dl N s') ql2 /\
       dq_cap (lem_du N s') = 2 * r + 2 /\ dq_cap (lem_dl N s') = 2 * r + 2 /\
       zlen qu2 <= 2 * r + 1 /\ zlen ql2 <= 2 * r + 1 /\
       mq G lo i (qu2 ++ [i]) /\ mq G lo i (ql2 ++ [i]) /\
       (forall x, In x qu2 -> In x ql2 -> False))).
  { pose proof (mq_length G lo (i - 1) qu ltac:(lia) Mu) as Lu.
    pose proof (mq_length G lo (i - 1) ql ltac:(lia) Ml) as Ll.
    destruct (nltb N (v (i - 1)) (v i)) eqn:E.
    - rewrite Du1. rewrite Equ in Hu. destruct (dq_pop_back_repr _ _ _ Hu) as (d2 & E2 & Hd2 & Hc2).
      rewrite E2. cbn [bind].
      eapply Post_seq; [apply (pop_while_any true i lo (i - 1) d2 qu1 [i - 1]); auto; try lia; now rewrite <- Equ|].
      intros d3 (q2 & popped & Eq & Hd3 & Hc3). cbn [Post wp lem_du lem_dl lem_l lem_u].
      split; [exact He1|]. exists q2, ql. rewrite Dl1.
      split; auto. split; auto. split; [congruence|]. split; auto.
      split; [|split; [lia|split; [|split]]].
      + subst qu qu1. rewrite zlen_app in Lu. pose proof (zlen_nonneg [i-1]). rewrite zlen_app in Lu. pose proof (zlen_nonneg popped). lia.
      + apply (mq_push G len G_trans G_refl lo i q2 (popped ++ [i - 1])); try lia; try easy.
        rewrite app_assoc, <- Eq, <- Equ. auto.
      + apply (mq_push G len G_trans G_refl lo i ql []); try lia; try easy.
        rewrite app_nil_r. auto.
      + intros x Hx1 Hx2. assert (x = i - 1).
        { apply Hsh; auto. subst qu qu1. apply in_or_app; left. apply in_or_app; now left. }
        subst x. destruct Mu as (_ & Hs & _). subst qu. apply SS_app in Hs as (_ & _ & S3).
        assert (In (i - 1) qu1) by (subst qu1; apply in_or_app; now left).
        specialize (S3 _ (i - 1) H ltac:(now left)). lia.
    - rewrite Dl1. rewrite Eql in Hl. destruct (dq_pop_back_repr _ _ _ Hl) as (d2 & E2 & Hd2 & Hc2).
      rewrite E2. cbn [bind].
      eapply Post_seq; [apply (pop_while_any false i lo (i - 1) d2 ql1 [i - 1]); auto; try lia; now rewrite <- Eql|].
      intros d3 (q2 & popped & Eq & Hd3 & Hc3). cbn [Post wp lem_du lem_dl lem_l lem_u].
      split; [exact He1|]. exists qu, q2. rewrite Du1.
      split; auto. split; auto. split; [congruence|]. split; [congruence|].
      split; [lia|split; [|split; [|split]]].
      + subst ql ql1. rewrite zlen_app in Ll. pose proof (zlen_nonneg [i-1]). rewrite zlen_app in Ll. pose proof (zlen_nonneg popped). lia.
      + apply (mq_push G len G_trans G_refl lo i qu []); try lia; try easy.
        rewrite app_nil_r. auto.
      + apply (mq_push G len G_trans G_refl lo i q2 (popped ++ [i - 1])); try lia; try easy.
        rewrite app_assoc, <- Eq, <- Eql. auto.
      + intros x Hx1 Hx2. assert (x = i - 1).
        { apply Hsh; auto. subst ql ql1. apply in_or_app; left. apply in_or_app; now left. }
        subst x. destruct Ml as (_ & Hs & _). subst ql. apply SS_app in Hs as (_ & _ & S3).
        assert (In (i - 1) ql1) by (subst ql1; apply in_or_app; now left).
        specialize (S3 _ (i - 1) H ltac:(now left)). lia. }
  intros s2 (He2 & qu2 & ql2 & Hu2 & Hl2 & Cu2 & Cl2 & Lu2 & Ll2 & Mu2 & Ml2 & Hsh2).
  destruct (dq_push_repr _ _ i Hu2 ltac:(lia)) as (du3 & E3 & Hu3 & Cu3). rewrite E3. cbn [bind].
  destruct (dq_push_repr _ _ i Hl2 ltac:(lia)) as (dl3 & E4 & Hl3 & Cl3). rewrite E4. cbn [bind].
  assert (Hsh3 : forall x, In x (qu2 ++ [i]) -> In x (ql2 ++ [i]) -> x = i).
  { intros x Hx1 Hx2. apply in_app_or in Hx1 as [Hx1|[<-|[]]]; auto.
    apply in_app_or in Hx2 as [Hx2|[<-|[]]]; auto. elim (Hsh2 x); auto. }
  remember (qu2 ++ [i]) as QU eqn:EQU. remember (ql2 ++ [i]) as QL eqn:EQL.
  destruct QU as [|fu QU]; [destruct qu2; discriminate|].
  destruct QL as [|fl QL]; [destruct ql2; discriminate|].
  clear EQU EQL.
  rewrite (dq_front_repr _ _ _ Hu3). cbn [bind]. rewrite (dq_front_repr _ _ _ Hl3). cbn [bind].
  pose proof (proj1 Mu2 fu ltac:(now left)) as Rfu. pose proof (proj1 Ml2 fl ltac:(now left)) as Rfl.
  destruct (Z_lt_ge_dec i (2 * r + 1)) as [Hsmall|Hbig].
  - destruct (i =? 2 * r + 1 + fu) eqn:T1; [lia|]. destruct (i =? 2 * r + 1 + fl) eqn:T2; [lia|].
    cbn [Post wp]. unfold inv1_any; cbn [lem_du lem_dl].
    replace (Z.max 0 (i + 1 - 1 - 2 * r)) with lo by lia. replace (i + 1 - 1) with i by lia.
    replace (i + 1 - r - 1) with (i - r) by lia.
    split; [exact He2|]. exists (fu :: QU), (fl :: QL). repeat (split; auto; try congruence).
  - assert (Elo : lo = i - 1 - 2 * r) by lia.
    destruct (mq_expire G lo i fu QU Mu2) as (Xu1 & Xu2).
    destruct (mq_expire G lo i fl QL Ml2) as (Xl1 & Xl2).
    assert (Hnb : fu = lo -> fl = lo -> False).
    { intros A B. assert (lo = i); [|lia]. apply Hsh3; [left|left]; auto. }
    destruct (i =? 2 * r + 1 + fu) eqn:T1.
    + assert (fu = lo) by lia. assert (fl <> lo) by auto.
      destruct (dq_pop_front_repr _ _ _ Hu3) as (Hu4 & Cu4).
      cbn [Post wp]. unfold inv1_any; cbn [lem_du lem_dl].
      replace (Z.max 0 (i + 1 - 1 - 2 * r)) with (lo + 1) by lia. replace (i + 1 - 1) with i by lia.
      replace (i + 1 - r - 1) with (i - r) by lia.
      split; [exact He2|]. exists QU, (fl :: QL). repeat (split; auto; try congruence).
      intros x Hx1 Hx2. apply Hsh3; auto. now right.
    + assert (fu <> lo) by lia. destruct (i =? 2 * r + 1 + fl) eqn:T2.
      * assert (fl = lo) by lia. destruct (dq_pop_front_repr _ _ _ Hl3) as (Hl4 & Cl4).
        cbn [Post wp]. unfold inv1_any; cbn [lem_du lem_dl].
        replace (Z.max 0 (i + 1 - 1 - 2 * r)) with (lo + 1) by lia. replace (i + 1 - 1) with i by lia.
        replace (i + 1 - r - 1) with (i - r) by lia.
        split; [exact He2|]. exists (fu :: QU), QL. repeat (split; auto; try congruence).
        intros x Hx1 Hx2. apply Hsh3; auto. now right.
      * assert (fl <> lo) by lia.
        cbn [Post wp]. unfold inv1_any; cbn [lem_du lem_dl].
        replace (Z.max 0 (i + 1 - 1 - 2 * r)) with (lo + 1) by lia. replace (i + 1 - 1) with i by lia.
        replace (i + 1 - r - 1) with (i - r) by lia.
        split; [exact He2|]. exists (fu :: QU), (fl :: QL). repeat (split; auto; try congruence).
Qed.

Lemma first_any du dl : dq_push_back (dq_new (2 * r + 2)) 0 = Ok du -> dq_push_back (dq_new (2 * r + 2)) 0 = Ok dl ->
  Post (for_ 1 len (lem_body1 N t r) (mkLem N (zrepeat None len) (zrepeat None len) du dl)) (inv1_any len).
Proof.
  intros Eu El. pose proof (dq_new_repr (2 * r + 2) ltac:(lia)) as H0.
  destruct (dq_push_repr _ _ 0 H0) as (d1 & E1 & H1 & C1).
  { change (0 < 2 * r + 2). lia. }
  rewrite E1 in Eu, El. injection Eu as <-. injection El as <-.
  assert (S0 : mq G 0 0 [0]).
  { split; [|split].
    - intros x [<-|[]]; lia.
    - constructor; constructor.
    - intros k Hk. exists 0. split; [now left|]. split; [lia|easy]. }
  eapply Post_conseq; [apply (for_rule inv1_any)|].
  - split; cbn [lem_du lem_dl lem_l lem_u].
    + split; [|split]; cbn [lem_l lem_u]; [apply zlen_zrepeat; lia ..|]. intros; lia.
    + exists [0], [0]. replace (Z.max 0 (1 - 1 - 2 * r)) with 0 by lia. replace (1 - 1) with 0 by lia.
      split; [auto|]. split; [auto|]. split; [auto|]. split; [auto|].
      split; [exact S0|]. split; [exact S0|].
      intros x [<-|[]] _; auto.
  - intros. apply body1_any; auto.
  - intros s1 H1'. now replace (Z.max 1 len) with len in H1' by lia.
Qed.

Definition inv2_any (i : Z) (s : lem_state N) : Prop :=
  emitted_any (i - r - 1) s /\
  exists qu ql, dq_repr (lem_du N s) qu /\ dq_repr (lem_dl N s) ql /\
    mq G (Z.max 0 (i - 1 - 2 * r)) (len - 1) qu /\ mq G (Z.max 0 (i - 1 - 2 * r)) (len - 1) ql.

Lemma expire2_any i d q : len <= i < len + r + 1 -> dq_repr d q ->
  mq G (Z.max 0 (i - 1 - 2 * r)) (len - 1) q ->
  exists f, dq_front d = Ok f /\
    exists q', dq_repr (if 2 * r + 1 <=? i - f then dq_pop_front d else d) q' /\
      mq G (Z.max 0 (i + 1 - 1 - 2 * r)) (len - 1) q'.
Proof.
  intros Hi Hd Hm. set (lo := Z.max 0 (i - 1 - 2 * r)) in *.
  destruct q as [|f q]; [elim (mq_lower G lo (len - 1) [] ltac:(lia) Hm); auto|].
  exists f. split; [eapply dq_front_repr; eauto|].
  pose proof (proj1 Hm f ltac:(now left)) as Rf.
  destruct (mq_expire G lo (len - 1) f q Hm) as (X1 & X2).
  destruct (2 * r + 1 <=? i - f) eqn:E.
  - exists q. split; [now apply dq_pop_front_repr in Hd as (? & _)|].
    replace (Z.max 0 (i + 1 - 1 - 2 * r)) with (lo + 1) by lia. apply X1. lia.
  - exists (f :: q). split; auto. destruct (Z_lt_ge_dec i (2 * r + 1)).
    + replace (Z.max 0 (i + 1 - 1 - 2 * r)) with lo by lia. auto.
    + replace (Z.max 0 (i + 1 - 1 - 2 * r)) with (lo + 1) by lia. apply X2. lia.
Qed.

Lemma body2_any i s : len <= i < len + r + 1 -> inv2_any i s -> Post (lem_body2 N t r i s) (inv2_any (i + 1)).
Proof.
  intros Hi (He & qu & ql & Hu & Hl & Mu & Ml). unfold lem_body2.
  eapply Post_seq; [eapply emit_any with (hi := len - 1); eauto; lia|].
  intros s1 (He1 & Du1 & Dl1). cbn beta. rewrite Du1, Dl1.
  destruct (expire2_any i _ _ Hi Hu Mu) as (fu & Ef & qu' & Hu' & Mu').
  destruct (expire2_any i _ _ Hi Hl Ml) as (fl & Efl & ql' & Hl' & Ml').
  rewrite Ef. cbn [bind]. rewrite Efl. cbn [bind Post wp]. unfold inv2_any; cbn [lem_du lem_dl].
  replace (i + 1 - r - 1) with (i - r) by lia. split; [exact He1|]. exists qu', ql'. auto.
Qed.

Lemma lemire_any : Post (lower_upper_lemire N t r) (fun lu =>
  zlen (fst lu) = len /\ zlen (snd lu) = len /\
  forall k, 0 <= k < len ->
    (exists x, zget (fst lu) k = Ok (Some x) /\ of_window k x) /\
    (exists x, zget (snd lu) k = Ok (Some x) /\ of_window k x)).
Proof.
  unfold lower_upper_lemire.
  pose proof (dq_new_repr (2 * r + 2) ltac:(lia)) as H0.
  destruct (dq_push_repr _ _ 0 H0) as (d1 & E1 & H1 & C1).
  { change (0 < 2 * r + 2). lia. }
  rewrite E1. cbn [bind].
  eapply Post_seq; [apply (first_any d1 d1 E1 E1)|]. intros s1 H1'.
  eapply Post_seq.
  - apply (for_rule inv2_any).
    + destruct H1' as (A & qu & ql & B1 & B2 & B3 & B4 & B5 & B6 & _). split; auto. exists qu, ql. auto.
    + intros. apply body2_any; auto.
  - intros s2 (A & _). cbn. replace (Z.max len (len + r + 1) - r - 1) with len in A by lia.
    destruct A as (A1 & A2 & A3). split; auto. split; auto. intros k Hk. apply A3; lia.
Qed.
End Lem.
