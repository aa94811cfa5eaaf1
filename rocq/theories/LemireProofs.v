(** * The envelope computed by lower_upper_lemire is the sliding window minimum / maximum. *)
From Coq Require Import ZArith Bool Lia List Sorted.
From Verif Require Import Outcome Num Deque Lemire Distance Laws Spec DequeProofs.
Import ListNotations.
Open Scope Z_scope.

(** ** Monotone queues of indices. [G x y]: index [x] is at least as good as [y]. *)
Section Mono.
Context (G : Z -> Z -> Prop) (len : Z).
Hypothesis Gtrans : forall x y z, 0 <= x < len -> 0 <= y < len -> 0 <= z < len -> G x y -> G y z -> G x z.
Hypothesis Grefl : forall x, 0 <= x < len -> G x x.

Definition mq (lo hi : Z) (q : list Z) : Prop :=
  (forall x, In x q -> lo <= x <= hi) /\
  StronglySorted (fun x y => x < y /\ G x y) q /\
  (forall k, lo <= k <= hi -> exists x, In x q /\ k <= x /\ G x k).

Lemma SS_app {A} (R : A -> A -> Prop) (l1 l2 : list A) :
  StronglySorted R (l1 ++ l2) <->
  StronglySorted R l1 /\ StronglySorted R l2 /\ (forall x y, In x l1 -> In y l2 -> R x y).
Proof.
  induction l1 as [|a l1 IH]; cbn.
  - split; [intros H; repeat split; auto; [constructor|contradiction]|tauto].
  - split.
    + intros H. inversion H; subst. apply IH in H2 as (A1 & A2 & A3). rewrite Forall_app in H3.
      destruct H3 as (F1 & F2). repeat split; auto.
      * constructor; auto.
      * intros x y [->|Hx] Hy; auto. rewrite Forall_forall in F2. auto.
    + intros (H1 & H2 & H3). inversion H1; subst. constructor.
      * apply IH. repeat split; auto.
      * rewrite Forall_app. split; auto. rewrite Forall_forall. auto.
Qed.

Lemma mq_push lo i q2 popped : 0 <= lo -> lo <= i < len ->
  mq lo (i - 1) (q2 ++ popped) ->
  (forall x, In x popped -> G i x) -> (forall x, In x q2 -> G x i) ->
  mq lo i (q2 ++ [i]).
Proof.
  intros Hlo Hi (Hr & Hs & Hc) Hp H2. split; [|split].
  - intros x Hx. apply in_app_or in Hx as [Hx|[<-|[]]]; [|lia].
    specialize (Hr x (in_or_app _ _ _ (or_introl Hx))). lia.
  - apply SS_app. apply SS_app in Hs as (S1 & S2 & S3). split; auto. split.
    + constructor; constructor.
    + intros x y Hx [<-|[]]. split; auto.
      specialize (Hr x (in_or_app _ _ _ (or_introl Hx))). lia.
  - intros k Hk. destruct (Z.eq_dec k i) as [->|Hne].
    + exists i. split; [apply in_or_app; right; now left|]. split; [lia|]. apply Grefl; lia.
    + destruct (Hc k ltac:(lia)) as (x & Hx & Hkx & Hg). pose proof (Hr x Hx).
      apply in_app_or in Hx as [Hx|Hx].
      * exists x. split; [apply in_or_app; now left|]. auto.
      * exists i. split; [apply in_or_app; right; now left|]. split; [lia|].
        apply Gtrans with x; auto; lia.
Qed.

Lemma mq_expire lo hi x q : mq lo hi (x :: q) ->
  (x = lo -> mq (lo + 1) hi q) /\ (x <> lo -> mq (lo + 1) hi (x :: q)).
Proof.
  intros (Hr & Hs & Hc). pose proof (Hr x ltac:(now left)). inversion Hs; subst. rewrite Forall_forall in H3.
  split; intros E.
  - subst x. split; [|split]; auto.
    + intros y Hy. specialize (Hr y ltac:(now right)). specialize (H3 y Hy). lia.
    + intros k Hk. destruct (Hc k ltac:(lia)) as (y & [<-|Hy] & Hky & Hg); [lia|]. eauto.
  - split; [|split]; auto.
    + intros y [<-|Hy]; [lia|]. specialize (Hr y ltac:(now right)). specialize (H3 y Hy). lia.
    + intros k Hk. apply Hc. lia.
Qed.

Lemma mq_lower lo hi q : lo <= hi -> mq lo hi q -> q <> [].
Proof. intros H (_ & _ & Hc) ->. destruct (Hc lo ltac:(lia)) as (x & [] & _). Qed.

(** The front is the best of the range. *)
Lemma mq_front lo hi x q : 0 <= lo -> hi < len -> mq lo hi (x :: q) ->
  lo <= x <= hi /\ forall k, lo <= k <= hi -> G x k.
Proof.
  intros Hlo Hhi (Hr & Hs & Hc). pose proof (Hr x ltac:(now left)). split; auto.
  intros k Hk. destruct (Hc k Hk) as (y & Hy & Hky & Hg). pose proof (Hr y Hy).
  destruct Hy as [<-|Hy]; auto.
  inversion Hs; subst. rewrite Forall_forall in H4. apply Gtrans with y; try lia; auto. now apply H4.
Qed.

(** The last element of a non-empty queue covering [hi] is [hi]. *)
Lemma mq_last lo hi q : lo <= hi -> mq lo hi q -> exists q1, q = q1 ++ [hi].
Proof.
  intros H Hm. destruct (exists_last (mq_lower _ _ _ H Hm)) as (q1 & x & ->).
  exists q1. destruct Hm as (Hr & Hs & Hc). destruct (Hc hi ltac:(lia)) as (y & Hy & Hky & _).
  pose proof (Hr y Hy). pose proof (Hr x ltac:(apply in_or_app; right; now left)).
  apply SS_app in Hs as (_ & _ & S3).
  apply in_app_or in Hy as [Hy|[<-|[]]].
  - specialize (S3 y x Hy ltac:(now left)). assert (y = hi) by lia. subst. lia.
  - assert (x = hi) by lia. now subst.
Qed.

Lemma mq_length lo hi q : lo <= hi + 1 -> mq lo hi q -> zlen q <= hi - lo + 1.
Proof.
  intros H (Hr & Hs & _). revert lo H Hr. induction Hs as [|a q Hs IH Hf]; intros lo H Hr.
  - rewrite zlen_nil. lia.
  - rewrite zlen_cons. pose proof (Hr a ltac:(now left)). rewrite Forall_forall in Hf.
    assert (zlen q <= hi - (a + 1) + 1).
    { apply IH; [lia|]. intros x Hx. specialize (Hf x Hx). specialize (Hr x ltac:(now right)). lia. }
    lia.
Qed.
End Mono.

(** ** The program. *)
Section Lem.
Context (N : NumOps) (ok : num N -> Prop) (L : OrdLaws N ok).
Local Notation T := (num N).
Context (t : list T) (Ht : Forall ok t) (r : Z).
Local Notation len := (zlen t).
Hypothesis Hr : 0 <= r /\ 1 <= len.
Local Notation v := (at_ N t).

Definition Gu (x y : Z) : Prop := le N (v y) (v x).
Definition Gl (x y : Z) : Prop := le N (v x) (v y).

Lemma v_ok i : 0 <= i < len -> ok (v i).
Proof.
  intros Hi. unfold at_. rewrite Forall_forall in Ht. apply Ht, nth_In. unfold zlen in Hi. lia.
Qed.
Lemma v_get i : 0 <= i < len -> zget t i = Ok (v i).
Proof. intros. now apply zget_nth. Qed.
Lemma Gu_trans x y z : 0 <= x < len -> 0 <= y < len -> 0 <= z < len -> Gu x y -> Gu y z -> Gu x z.
Proof. intros. unfold Gu in *. apply (ord_trans _ _ L) with (v y); auto using v_ok. Qed.
Lemma Gl_trans x y z : 0 <= x < len -> 0 <= y < len -> 0 <= z < len -> Gl x y -> Gl y z -> Gl x z.
Proof. intros. unfold Gl in *. apply (ord_trans _ _ L) with (v y); auto using v_ok. Qed.
Lemma Gu_refl x : 0 <= x < len -> Gu x x.
Proof. intros. apply (le_refl N ok L). auto using v_ok. Qed.
Lemma Gl_refl x : 0 <= x < len -> Gl x x.
Proof. intros. apply (le_refl N ok L). auto using v_ok. Qed.

Definition GG (gt : bool) := if gt then Gu else Gl.
Lemma GG_trans g x y z : 0 <= x < len -> 0 <= y < len -> 0 <= z < len -> GG g x y -> GG g y z -> GG g x z.
Proof. destruct g; [apply Gu_trans|apply Gl_trans]. Qed.
Lemma GG_refl g x : 0 <= x < len -> GG g x x.
Proof. destruct g; [apply Gu_refl|apply Gl_refl]. Qed.

Definition cond g ti d := if dq_empty d then Ok false
              else bind (dq_back d) (fun b => bind (zget t b) (fun tb =>
                   Ok (if g : bool then nltb N tb ti else nltb N ti tb))).

Lemma pop_while_spec g i lo hi d q q0 : 0 <= lo -> hi < len -> 0 <= i < len -> dq_repr d q ->
  mq (GG g) lo hi (q ++ q0) -> 
  Post (pop_while N t (v i) g d) (fun d' => exists q2 popped, q = q2 ++ popped /\ dq_repr d' q2 /\
     dq_cap d' = dq_cap d /\ (forall x, In x popped -> GG g i x) /\ (forall x, In x q2 -> GG g x i)).
Proof.
  intros Hlo Hhi Hi Hd Hm. unfold pop_while.
  eapply Post_conseq.
  - apply (while_rule (fun d' => exists q2 popped, q = q2 ++ popped /\ dq_repr d' q2 /\
      dq_cap d' = dq_cap d /\ (forall x, In x popped -> GG g i x)) (fun d' => Z.to_nat (dq_size d'))).
    + exists q, []. rewrite app_nil_r. split; [auto|split; [auto|split; [auto|intros x []]]].
    + reflexivity.
    + intros d' (q2 & popped & E & Hd' & Hcap & Hp).
      destruct (dq_empty d') eqn:Ee; [cbn; discriminate|].
      assert (Hne : q2 <> []). { intros ->. rewrite (proj2 (dq_empty_repr _ _ Hd') eq_refl) in Ee. discriminate. }
      destruct (exists_last Hne) as (q3 & x & ->).
      assert (Hx : lo <= x <= hi).
      { apply (proj1 Hm). subst q. apply in_or_app; left. apply in_or_app; left. apply in_or_app; right; now left. }
      rewrite (dq_back_repr _ _ _ Hd'). cbn [bind]. rewrite v_get by lia. cbn [bind Post wp].
      intros Hb. destruct (dq_pop_back_repr _ _ _ Hd') as (d2 & E2 & Hd2 & Hc2). rewrite E2. cbn.
      split.
      * exists q3, (x :: popped). rewrite E, <- app_assoc. cbn. split; [auto|split; [auto|split; [congruence|]]].
        intros y [<-|Hy]; auto. destruct g; cbn; unfold Gu, Gl.
        -- apply (lt_le N ok L); auto; apply v_ok; lia.
        -- apply (lt_le N ok L); auto; apply v_ok; lia.
      * destruct Hd2 as (_ & _ & _ & S2 & _). destruct Hd' as (_ & _ & _ & S' & _).
        rewrite S2, S', zlen_snoc. pose proof (zlen_nonneg q3). lia.
  - intros d' ((q2 & popped & E & Hd' & Hcap & Hp) & Hc).
    exists q2, popped. split; [auto|split; [auto|split; [auto|split; [auto|]]]].
    destruct q2 as [|y0 q2'] eqn:Eq2; [cbn; contradiction|]. rewrite <- Eq2 in *.
    assert (Hne : q2 <> []) by (rewrite Eq2; discriminate). clear Eq2 y0 q2'.
    destruct (dq_empty d') eqn:Ee.
    { apply (dq_empty_repr _ _ Hd') in Ee. contradiction. }
    destruct (exists_last Hne) as (q3 & x & ->).
    assert (Hrange : forall y, In y (q3 ++ [x]) -> lo <= y <= hi).
    { intros y Hy. apply (proj1 Hm). subst q. apply in_or_app; left. apply in_or_app; left; auto. }
    pose proof (Hrange x ltac:(apply in_or_app; right; now left)) as Hx.
    rewrite (dq_back_repr _ _ _ Hd') in Hc. cbn [bind] in Hc. rewrite v_get in Hc by lia. cbn in Hc.
    assert (Gx : GG g x i).
    { destruct g; cbn; unfold Gu, Gl, le; congruence. }
    intros y Hy. apply in_app_or in Hy as [Hy|[<-|[]]]; auto.
    pose proof (Hrange y ltac:(apply in_or_app; now left)).
    apply GG_trans with x; auto; try lia.
    destruct Hm as (_ & Hs & _). subst q. rewrite <- !app_assoc in Hs.
    apply SS_app in Hs as (_ & _ & S3). apply (S3 y x Hy). now left.
Qed.

(** Emitted cells. *)
Definition env_min (k : Z) (x : T) := is_window_min N t (Z.max 0 (k - r)) (Z.min (len - 1) (k + r)) x.
Definition env_max (k : Z) (x : T) := is_window_max N t (Z.max 0 (k - r)) (Z.min (len - 1) (k + r)) x.
Definition emitted (K : Z) (s : lem_state N) : Prop :=
  zlen (lem_l N s) = len /\ zlen (lem_u N s) = len /\
  forall k, 0 <= k < K -> k < len ->
    (exists x, zget (lem_l N s) k = Ok (Some x) /\ env_min k x) /\
    (exists x, zget (lem_u N s) k = Ok (Some x) /\ env_max k x).

Lemma emit_spec i hi s qu ql : 0 <= i - r - 1 < len -> hi = Z.min (len - 1) (i - 1) ->
  dq_repr (lem_du N s) qu -> dq_repr (lem_dl N s) ql ->
  mq Gu (Z.max 0 (i - 1 - 2 * r)) hi qu -> mq Gl (Z.max 0 (i - 1 - 2 * r)) hi ql ->
  emitted (i - r - 1) s ->
  Post (emit N t (i - r - 1) s) (fun s' => emitted (i - r) s' /\ lem_du N s' = lem_du N s /\ lem_dl N s' = lem_dl N s).
Proof.
  intros Hk Hhi Hu Hl Mu Ml (L1 & L2 & He). unfold emit.
  set (k := i - r - 1) in *. set (lo := Z.max 0 (i - 1 - 2 * r)) in *.
  assert (lo <= hi) by lia.
  destruct qu as [|fu qu]; [elim (mq_lower _ _ _ _ H Mu); auto|].
  destruct ql as [|fl ql]; [elim (mq_lower _ _ _ _ H Ml); auto|].
  destruct (mq_front Gu len Gu_trans lo hi fu qu ltac:(lia) ltac:(lia) Mu) as (Ru & Bu).
  destruct (mq_front Gl len Gl_trans lo hi fl ql ltac:(lia) ltac:(lia) Ml) as (Rl & Bl).
  rewrite (dq_front_repr _ _ _ Hu). cbn [bind]. rewrite v_get by lia. cbn [bind].
  assert (Eu : zset (lem_u N s) k (Some (v fu)) = Ok (list_set (lem_u N s) (Z.to_nat k) (Some (v fu))))
    by (apply zset_Ok; lia). rewrite Eu. cbn [bind].
  rewrite (dq_front_repr _ _ _ Hl). cbn [bind]. rewrite v_get by lia. cbn [bind].
  assert (El : zset (lem_l N s) k (Some (v fl)) = Ok (list_set (lem_l N s) (Z.to_nat k) (Some (v fl))))
    by (apply zset_Ok; lia). rewrite El. cbn [bind Post wp lem_du lem_dl]. split; auto.
  split; [|split]; cbn [lem_l lem_u].
  - now rewrite (zset_len _ _ _ _ El).
  - now rewrite (zset_len _ _ _ _ Eu).
  - intros k' Hk' Hk''. destruct (Z.eq_dec k k') as [<-|Hne].
    + rewrite (zget_zset_eq _ _ _ _ El), (zget_zset_eq _ _ _ _ Eu).
      split; (eexists; split; [reflexivity|]); (split; [eexists; split; [|reflexivity]; lia|]); intros x Hx.
      * apply Bl. lia.
      * apply Bu. lia.
    + rewrite (zget_zset_neq _ _ _ _ _ El Hne), (zget_zset_neq _ _ _ _ _ Eu Hne). apply He; lia.
Qed.

(** Loop invariants. *)
Definition inv1 (i : Z) (s : lem_state N) : Prop :=
  emitted (i - r - 1) s /\
  exists qu ql, dq_repr (lem_du N s) qu /\ dq_repr (lem_dl N s) ql /\
    dq_cap (lem_du N s) = 2 * r + 2 /\ dq_cap (lem_dl N s) = 2 * r + 2 /\
    mq Gu (Z.max 0 (i - 1 - 2 * r)) (i - 1) qu /\ mq Gl (Z.max 0 (i - 1 - 2 * r)) (i - 1) ql /\
    (forall x, In x qu -> In x ql -> x = i - 1).

Lemma body1_spec i s : 1 <= i < len -> inv1 i s -> Post (lem_body1 N t r i s) (inv1 (i + 1)).
Proof.
  intros Hi (He & qu & ql & Hu & Hl & Cu & Cl & Mu & Ml & Hsh). unfold lem_body1.
  eapply (Post_seq (fun s' => emitted (i - r) s' /\ lem_du N s' = lem_du N s /\ lem_dl N s' = lem_dl N s)).
  { destruct (r <? i) eqn:E.
    - eapply emit_spec with (hi := i - 1); eauto; lia.
    - cbn. split; auto. destruct He as (E1 & E2 & _). split; auto. split; auto. intros; lia. }
  intros s1 (He1 & Du1 & Dl1). rewrite !v_get by lia. cbn [bind].
  set (lo := Z.max 0 (i - 1 - 2 * r)) in *.
  destruct (mq_last Gu lo (i - 1) qu ltac:(lia) Mu) as (qu1 & Equ).
  destruct (mq_last Gl lo (i - 1) ql ltac:(lia) Ml) as (ql1 & Eql).
  assert (Vi : ok (v i)) by (apply v_ok; lia). assert (Vi1 : ok (v (i - 1))) by (apply v_ok; lia).
  (* after the pops *)
  eapply (Post_seq (fun s' => emitted (i - r) s' /\
     exists qu2 ql2, dq_repr (lem_du N s') qu2 /\ dq_repr (lem_dl N s') ql2 /\
       dq_cap (lem_du N s') = 2 * r + 2 /\ dq_cap (lem_dl N s') = 2 * r + 2 /\
       zlen qu2 <= 2 * r + 1 /\ zlen ql2 <= 2 * r + 1 /\
       mq Gu lo i (qu2 ++ [i]) /\ mq Gl lo i (ql2 ++ [i]) /\
       (forall x, In x qu2 -> In x ql2 -> False))).
  { pose proof (mq_length Gu lo (i - 1) qu ltac:(lia) Mu) as Lu.
    pose proof (mq_length Gl lo (i - 1) ql ltac:(lia) Ml) as Ll.
    destruct (nltb N (v (i - 1)) (v i)) eqn:E.
    - rewrite Du1. rewrite Equ in Hu. destruct (dq_pop_back_repr _ _ _ Hu) as (d2 & E2 & Hd2 & Hc2).
      rewrite E2. cbn [bind].
      eapply Post_seq; [apply (pop_while_spec true i lo (i - 1) d2 qu1 [i - 1]); auto; try lia; now rewrite <- Equ|].
      intros d3 (q2 & popped & Eq & Hd3 & Hc3 & Hpop & Hkeep). cbn [Post wp lem_du lem_dl lem_l lem_u].
      split; [exact He1|]. exists q2, ql. rewrite Dl1.
      assert (Hlt : forall x, In x ql -> Gl x i).
      { intros x Hx. pose proof (proj1 Ml x Hx). apply Gl_trans with (i - 1); try lia.
        - subst ql. apply in_app_or in Hx as [Hx|[<-|[]]]; [|apply Gl_refl; lia].
          destruct Ml as (_ & Hs & _). apply SS_app in Hs as (_ & _ & S3). apply (S3 x (i - 1) Hx). now left.
        - apply (lt_le N ok L); auto. }
      split; auto. split; auto. split; [congruence|]. split; auto.
      split; [|split; [lia|split; [|split]]].
      + subst qu qu1. rewrite zlen_app in Lu. pose proof (zlen_nonneg [i-1]). rewrite zlen_app in Lu. pose proof (zlen_nonneg popped). lia.
      + apply (mq_push Gu len Gu_trans Gu_refl lo i q2 (popped ++ [i - 1])); try lia.
        * rewrite app_assoc, <- Eq, <- Equ. auto.
        * intros x Hx. apply in_app_or in Hx as [Hx|[<-|[]]]; [apply Hpop; auto|].
          apply (lt_le N ok L); auto.
        * exact Hkeep.
      + apply (mq_push Gl len Gl_trans Gl_refl lo i ql []); try lia.
        * rewrite app_nil_r. auto.
        * intros x [].
        * exact Hlt.
      + intros x Hx1 Hx2. assert (x = i - 1).
        { apply Hsh; auto. subst qu qu1. apply in_or_app; left. apply in_or_app; now left. }
        subst x. destruct Mu as (_ & Hs & _). subst qu. apply SS_app in Hs as (_ & _ & S3).
        assert (In (i - 1) qu1) by (subst qu1; apply in_or_app; now left).
        specialize (S3 _ (i - 1) H ltac:(now left)). lia.
    - rewrite Dl1. rewrite Eql in Hl. destruct (dq_pop_back_repr _ _ _ Hl) as (d2 & E2 & Hd2 & Hc2).
      rewrite E2. cbn [bind].
      eapply Post_seq; [apply (pop_while_spec false i lo (i - 1) d2 ql1 [i - 1]); auto; try lia; now rewrite <- Eql|].
      intros d3 (q2 & popped & Eq & Hd3 & Hc3 & Hpop & Hkeep). cbn [Post wp lem_du lem_dl lem_l lem_u].
      split; [exact He1|]. exists qu, q2. rewrite Du1.
      assert (Hlt : forall x, In x qu -> Gu x i).
      { intros x Hx. pose proof (proj1 Mu x Hx). apply Gu_trans with (i - 1); try lia.
        - subst qu. apply in_app_or in Hx as [Hx|[<-|[]]]; [|apply Gu_refl; lia].
          destruct Mu as (_ & Hs & _). apply SS_app in Hs as (_ & _ & S3). apply (S3 x (i - 1) Hx). now left.
        - exact E. }
      split; auto. split; auto. split; [congruence|]. split; [congruence|].
      split; [lia|split; [|split; [|split]]].
      + subst ql ql1. rewrite zlen_app in Ll. pose proof (zlen_nonneg [i-1]). rewrite zlen_app in Ll. pose proof (zlen_nonneg popped). lia.
      + apply (mq_push Gu len Gu_trans Gu_refl lo i qu []); try lia.
        * rewrite app_nil_r. auto.
        * intros x [].
        * exact Hlt.
      + apply (mq_push Gl len Gl_trans Gl_refl lo i q2 (popped ++ [i - 1])); try lia.
        * rewrite app_assoc, <- Eq, <- Eql. auto.
        * intros x Hx. apply in_app_or in Hx as [Hx|[<-|[]]]; [apply Hpop; auto|]. exact E.
        * exact Hkeep.
      + intros x Hx1 Hx2. assert (x = i - 1).
        { apply Hsh; auto. subst ql ql1. apply in_or_app; left. apply in_or_app; now left. }
        subst x. destruct Ml as (_ & Hs & _). subst ql. apply SS_app in Hs as (_ & _ & S3).
        assert (In (i - 1) ql1) by (subst ql1; apply in_or_app; now left).
        specialize (S3 _ (i - 1) H ltac:(now left)). lia. }
  intros s2 (He2 & qu2 & ql2 & Hu2 & Hl2 & Cu2 & Cl2 & Lu2 & Ll2 & Mu2 & Ml2 & Hsh2).
  destruct (dq_push_repr _ _ i Hu2 ltac:(lia)) as (du3 & E3 & Hu3 & Cu3). rewrite E3. cbn [bind].
  destruct (dq_push_repr _ _ i Hl2 ltac:(lia)) as (dl3 & E4 & Hl3 & Cl3). rewrite E4. cbn [bind].
  (* fronts *)
  assert (Hsh3 : forall x, In x (qu2 ++ [i]) -> In x (ql2 ++ [i]) -> x = i).
  { intros x Hx1 Hx2. apply in_app_or in Hx1 as [Hx1|[<-|[]]]; auto.
    apply in_app_or in Hx2 as [Hx2|[<-|[]]]; auto. elim (Hsh2 x); auto. }
  remember (qu2 ++ [i]) as QU eqn:EQU. remember (ql2 ++ [i]) as QL eqn:EQL.
  destruct QU as [|fu QU]; [destruct qu2; discriminate|].
  destruct QL as [|fl QL]; [destruct ql2; discriminate|].
  clear EQU EQL.
  rewrite (dq_front_repr _ _ _ Hu3). cbn [bind]. rewrite (dq_front_repr _ _ _ Hl3). cbn [bind].
  pose proof (proj1 Mu2 fu ltac:(now left)) as Rfu. pose proof (proj1 Ml2 fl ltac:(now left)) as Rfl.
  destruct (Z_lt_ge_dec i (2 * r + 1)) as [Hsmall|Hbig].
  - destruct (i =? 2 * r + 1 + fu) eqn:T1; [lia|]. destruct (i =? 2 * r + 1 + fl) eqn:T2; [lia|].
    cbn [Post wp]. unfold inv1; cbn [lem_du lem_dl].
    replace (Z.max 0 (i + 1 - 1 - 2 * r)) with lo by lia. replace (i + 1 - 1) with i by lia.
    replace (i + 1 - r - 1) with (i - r) by lia.
    split; [exact He2|]. exists (fu :: QU), (fl :: QL). repeat (split; auto; try congruence).
  - assert (Elo : lo = i - 1 - 2 * r) by lia.
    destruct (mq_expire Gu lo i fu QU Mu2) as (Xu1 & Xu2).
    destruct (mq_expire Gl lo i fl QL Ml2) as (Xl1 & Xl2).
    assert (Hnb : fu = lo -> fl = lo -> False).
    { intros A B. assert (lo = i); [|lia]. apply Hsh3; [left|left]; auto. }
    destruct (i =? 2 * r + 1 + fu) eqn:T1.
    + assert (fu = lo) by lia. assert (fl <> lo) by auto.
      destruct (dq_pop_front_repr _ _ _ Hu3) as (Hu4 & Cu4).
      cbn [Post wp]. unfold inv1; cbn [lem_du lem_dl].
      replace (Z.max 0 (i + 1 - 1 - 2 * r)) with (lo + 1) by lia. replace (i + 1 - 1) with i by lia.
      replace (i + 1 - r - 1) with (i - r) by lia.
      split; [exact He2|]. exists QU, (fl :: QL). repeat (split; auto; try congruence).
      intros x Hx1 Hx2. apply Hsh3; auto. now right.
    + assert (fu <> lo) by lia. destruct (i =? 2 * r + 1 + fl) eqn:T2.
      * assert (fl = lo) by lia. destruct (dq_pop_front_repr _ _ _ Hl3) as (Hl4 & Cl4).
        cbn [Post wp]. unfold inv1; cbn [lem_du lem_dl].
        replace (Z.max 0 (i + 1 - 1 - 2 * r)) with (lo + 1) by lia. replace (i + 1 - 1) with i by lia.
        replace (i + 1 - r - 1) with (i - r) by lia.
        split; [exact He2|]. exists (fu :: QU), QL. repeat (split; auto; try congruence).
        intros x Hx1 Hx2. apply Hsh3; auto. now right.
      * assert (fl <> lo) by lia.
        cbn [Post wp]. unfold inv1; cbn [lem_du lem_dl].
        replace (Z.max 0 (i + 1 - 1 - 2 * r)) with (lo + 1) by lia. replace (i + 1 - 1) with i by lia.
        replace (i + 1 - r - 1) with (i - r) by lia.
        split; [exact He2|]. exists (fu :: QU), (fl :: QL). repeat (split; auto; try congruence).
Qed.

(** The state after the first loop. *)
Lemma first_loop du dl : dq_push_back (dq_new (2 * r + 2)) 0 = Ok du -> dq_push_back (dq_new (2 * r + 2)) 0 = Ok dl ->
  Post (for_ 1 len (lem_body1 N t r) (mkLem N (zrepeat None len) (zrepeat None len) du dl)) (inv1 len).
Proof.
  intros Eu El. pose proof (dq_new_repr (2 * r + 2) ltac:(lia)) as H0.
  destruct (dq_push_repr _ _ 0 H0) as (d1 & E1 & H1 & C1).
  { change (0 < 2 * r + 2). lia. }
  rewrite E1 in Eu, El. injection Eu as <-. injection El as <-.
  assert (S0 : forall G : Z -> Z -> Prop, G 0 0 -> mq G 0 0 [0]).
  { intros G HG. split; [|split].
    - intros x [<-|[]]; lia.
    - constructor; constructor.
    - intros k Hk. exists 0. split; [now left|]. split; [lia|]. now replace k with 0 by lia. }
  eapply Post_conseq; [apply (for_rule inv1)|].
  - split; cbn [lem_du lem_dl lem_l lem_u].
    + split; [|split]; cbn [lem_l lem_u]; [apply zlen_zrepeat; lia ..|]. intros; lia.
    + exists [0], [0]. replace (Z.max 0 (1 - 1 - 2 * r)) with 0 by lia. replace (1 - 1) with 0 by lia.
      split; [auto|]. split; [auto|]. split; [auto|]. split; [auto|].
      split; [apply S0, Gu_refl; lia|]. split; [apply S0, Gl_refl; lia|].
      intros x [<-|[]] _; auto.
  - intros. apply body1_spec; auto.
  - intros s1 H1'. now replace (Z.max 1 len) with len in H1' by lia.
Qed.
(** A window wider than the series: the second loop writes before the start of the arrays. *)
Lemma lemire_wide : len <= r -> lower_upper_lemire N t r = UB OutOfBounds.
Proof.
  intros Hw. unfold lower_upper_lemire. pose proof (dq_new_repr (2 * r + 2) ltac:(lia)) as H0.
  destruct (dq_push_repr _ _ 0 H0) as (d1 & E1 & H1 & C1).
  { change (0 < 2 * r + 2). lia. }
  rewrite E1. cbn [bind]. destruct (Post_inv _ _ (first_loop d1 d1 E1 E1)) as (s & E & _ & qu & ql & Hu & Hl & _ & _ & Mu & Ml & _). rewrite E. cbn [bind].
  assert (X : lem_body2 N t r len s = UB OutOfBounds).
  { unfold lem_body2, emit. assert (H : Z.max 0 (len - 1 - 2 * r) <= len - 1) by lia.
    destruct qu as [|fu qu]; [elim (mq_lower _ _ _ _ H Mu); auto|]. destruct ql as [|fl ql]; [elim (mq_lower _ _ _ _ H Ml); auto|].
    pose proof (proj1 Mu fu ltac:(now left)) as Ru. rewrite (dq_front_repr _ _ _ Hu). cbn [bind]. rewrite v_get by lia. cbn [bind].
    unfold zset at 1. destruct (Z.ltb_spec (len - r - 1) 0); [reflexivity|lia]. }
  unfold for_. replace (Z.to_nat (len + r + 1 - len)) with (S (Z.to_nat r)) by lia. cbn [loop]. rewrite X. reflexivity.
Qed.

Hypothesis Hr1 : r <= len - 1.

Definition inv2 (i : Z) (s : lem_state N) : Prop :=
  emitted (i - r - 1) s /\
  exists qu ql, dq_repr (lem_du N s) qu /\ dq_repr (lem_dl N s) ql /\
    mq Gu (Z.max 0 (i - 1 - 2 * r)) (len - 1) qu /\ mq Gl (Z.max 0 (i - 1 - 2 * r)) (len - 1) ql.

Lemma expire2 G i d q : len <= i < len + r + 1 -> dq_repr d q -> 
  mq G (Z.max 0 (i - 1 - 2 * r)) (len - 1) q ->
  exists f, dq_front d = Ok f /\
    exists q', dq_repr (if 2 * r + 1 <=? i - f then dq_pop_front d else d) q' /\
      mq G (Z.max 0 (i + 1 - 1 - 2 * r)) (len - 1) q'.
Proof.
  intros Hi Hd Hm. set (lo := Z.max 0 (i - 1 - 2 * r)) in *.
  destruct q as [|f q]; [elim (mq_lower G lo (len - 1) [] ltac:(lia) Hm); auto|].
  exists f. split; [eapply dq_front_repr; eauto|].
  pose proof (proj1 Hm f ltac:(now left)) as Rf.
  destruct (mq_expire G lo (len - 1) f q Hm) as (X1 & X2).
  destruct (2 * r + 1 <=? i - f) eqn:E.
  - exists q. split; [now apply dq_pop_front_repr in Hd as (? & _)|].
    replace (Z.max 0 (i + 1 - 1 - 2 * r)) with (lo + 1) by lia. apply X1. lia.
  - exists (f :: q). split; auto. destruct (Z_lt_ge_dec i (2 * r + 1)).
    + replace (Z.max 0 (i + 1 - 1 - 2 * r)) with lo by lia. auto.
    + replace (Z.max 0 (i + 1 - 1 - 2 * r)) with (lo + 1) by lia. apply X2. lia.
Qed.

Lemma body2_spec i s : len <= i < len + r + 1 -> inv2 i s -> Post (lem_body2 N t r i s) (inv2 (i + 1)).
Proof.
  intros Hi (He & qu & ql & Hu & Hl & Mu & Ml). unfold lem_body2.
  eapply Post_seq; [eapply emit_spec with (hi := len - 1); eauto; lia|].
  intros s1 (He1 & Du1 & Dl1). cbn beta. rewrite Du1, Dl1.
  destruct (expire2 Gu i _ _ Hi Hu Mu) as (fu & Ef & qu' & Hu' & Mu').
  destruct (expire2 Gl i _ _ Hi Hl Ml) as (fl & Efl & ql' & Hl' & Ml').
  rewrite Ef. cbn [bind]. rewrite Efl. cbn [bind Post wp]. unfold inv2; cbn [lem_du lem_dl].
  replace (i + 1 - r - 1) with (i - r) by lia. split; [exact He1|]. exists qu', ql'. auto.
Qed.

Lemma lemire_ok : Post (lower_upper_lemire N t r) (fun lu =>
  zlen (fst lu) = len /\ zlen (snd lu) = len /\
  forall k, 0 <= k < len ->
    (exists x, zget (fst lu) k = Ok (Some x) /\ env_min k x) /\
    (exists x, zget (snd lu) k = Ok (Some x) /\ env_max k x)).
Proof.
  unfold lower_upper_lemire.
  pose proof (dq_new_repr (2 * r + 2) ltac:(lia)) as H0.
  destruct (dq_push_repr _ _ 0 H0) as (d1 & E1 & H1 & C1).
  { change (0 < 2 * r + 2). lia. }
  rewrite E1. cbn [bind].
  eapply Post_seq; [apply (first_loop d1 d1 E1 E1)|]. intros s1 H1'.
  eapply Post_seq.
  - apply (for_rule inv2).
    + destruct H1' as (A & qu & ql & B1 & B2 & B3 & B4 & B5 & B6 & _). split; auto. exists qu, ql. auto.
    + intros. apply body2_spec; auto.
  - intros s2 (A & _). cbn. replace (Z.max len (len + r + 1) - r - 1) with len in A by lia.
    destruct A as (A1 & A2 & A3). split; auto. split; auto. intros k Hk. apply A3; lia.
Qed.
End Lem.
Lemma lemire_spec N ok (L : OrdLaws N ok) (t : list (num N)) (Ht : Forall ok t) r (Hr : 0 <= r <= zlen t - 1) : Post (lower_upper_lemire N t r) (fun lu =>
  zlen (fst lu) = zlen t /\ zlen (snd lu) = zlen t /\
  forall k, 0 <= k < zlen t ->
    (exists x, zget (fst lu) k = Ok (Some x) /\ env_min N t r k x) /\
    (exists x, zget (snd lu) k = Ok (Some x) /\ env_max N t r k x)).
Proof. apply (lemire_ok N ok L t Ht r ltac:(lia) ltac:(lia)). Qed.

(** The envelope of a series: any non-negative band. *)
Lemma generateKeoghLU_spec N ok (L : OrdLaws N ok) a band : Forall ok a -> 1 <= zlen a -> 0 <= band ->
  Post (generateKeoghLU N a band) (fun lu =>
    zlen (fst lu) = zlen a /\ zlen (snd lu) = zlen a /\
    forall k, 0 <= k < zlen a ->
      (exists x, zget (fst lu) k = Ok (Some x) /\
         is_window_min N a (Z.max 0 (k - band)) (Z.min (zlen a - 1) (k + band)) x) /\
      (exists x, zget (snd lu) k = Ok (Some x) /\
         is_window_max N a (Z.max 0 (k - band)) (Z.min (zlen a - 1) (k + band)) x)).
Proof.
  intros Ha Hl Hb. unfold generateKeoghLU. set (r := Z.min band (zlen a - 1)).
  eapply Post_conseq; [apply (lemire_spec N ok L a Ha r); lia|].
  intros [l u] (H1 & H2 & H3). split; auto. split; auto. intros k Hk.
  destruct (H3 k Hk) as ((x & Ex & Mx) & (y & Ey & My)). unfold env_min, env_max in *.
  replace (Z.max 0 (k - r)) with (Z.max 0 (k - band)) in * by lia.
  replace (Z.min (zlen a - 1) (k + r)) with (Z.min (zlen a - 1) (k + band)) in * by lia.
  split; eauto.
Qed.
