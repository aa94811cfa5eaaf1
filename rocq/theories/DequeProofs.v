(** * The circular deque behaves like a list. *)
From Coq Require Import ZArith Bool Lia List.
From Verif Require Import Outcome Deque Spec.
Import ListNotations.
Open Scope Z_scope.

(** [d] represents the queue [l], front first. *)
Definition dq_repr (d : deque) (l : list Z) : Prop :=
  1 <= dq_cap d /\ zlen (dq_data d) = dq_cap d /\ 0 <= dq_f d < dq_cap d /\
  dq_size d = zlen l /\ zlen l <= dq_cap d /\
  dq_r d = (dq_f d - 1 - zlen l) mod dq_cap d /\
  (forall k v, zget l k = Ok v -> zget (dq_data d) ((dq_f d - 1 - k) mod dq_cap d) = Ok (Some v)).

Lemma wrap_down x c : 0 <= x < c -> (if x - 1 <? 0 then c - 1 else x - 1) = (x - 1) mod c.
Proof.
  intros H. destruct (x - 1 <? 0) eqn:E.
  - assert (x = 0) by lia; subst. replace (0 - 1) with (c - 1 + (-1) * c) by lia.
    rewrite Z_mod_plus_full. rewrite Z.mod_small; lia.
  - rewrite Z.mod_small; lia.
Qed.
Lemma wrap_up x c : 1 <= c -> 0 <= x -> Z.rem (x + 1) c = (x + 1) mod c.
Proof. intros. apply Z.rem_mod_nonneg; lia. Qed.
Lemma mod_add1 y c : 1 <= c -> (y mod c + 1) mod c = (y + 1) mod c.
Proof. intros. rewrite Zplus_mod_idemp_l. reflexivity. Qed.
Lemma mod_sub1 y c : 1 <= c -> (y mod c - 1) mod c = (y - 1) mod c.
Proof. intros. rewrite Zminus_mod_idemp_l. reflexivity. Qed.
Lemma mod_neq x y c : 1 <= c -> 0 < x - y < c -> x mod c <> y mod c.
Proof.
  intros Hc H E. assert ((x - y) mod c = 0).
  { rewrite Zminus_mod, E, Z.sub_diag. apply Z.mod_0_l. lia. }
  rewrite Z.mod_small in H0; lia.
Qed.

Lemma zlen_snoc {A} (l : list A) x : zlen (l ++ [x]) = zlen l + 1.
Proof. rewrite zlen_app, zlen_cons, zlen_nil. lia. Qed.

Lemma dq_new_repr c : 1 <= c -> dq_repr (dq_new c) [].
Proof.
  intros H. unfold dq_new, dq_repr; cbn. rewrite zlen_zrepeat by lia.
  repeat split; try lia.
  - change (c - 1 = (0 - 1) mod c). rewrite <- wrap_down by lia. reflexivity.
  - intros k v Hk. apply zget_inv in Hk. unfold zlen in Hk; cbn in Hk. lia.
Qed.

Lemma dq_push_repr d l v : dq_repr d l -> zlen l < dq_cap d ->
  exists d', dq_push_back d v = Ok d' /\ dq_repr d' (l ++ [v]) /\ dq_cap d' = dq_cap d.
Proof.
  intros (Hc & Hd & Hf & Hs & Hl & Hr & He) Hlt. unfold dq_push_back.
  assert (Hr' : 0 <= dq_r d < dq_cap d) by (rewrite Hr; apply Z.mod_pos_bound; lia).
  rewrite zset_Ok by lia. cbn [bind]. eexists. split; [reflexivity|]. split; [|reflexivity].
  pose proof (zset_Ok (dq_data d) (dq_r d) (Some v) ltac:(lia)) as Hset.
  unfold dq_repr; cbn. rewrite zlen_snoc. rewrite (zset_len _ _ _ _ Hset).
  rewrite wrap_down by lia.
  repeat split; try lia.
  - rewrite Hr, mod_sub1 by lia. f_equal. lia.
  - intros k w Hk. assert (Hk' : 0 <= k < zlen l + 1).
    { apply zget_inv in Hk. rewrite zlen_snoc in Hk. lia. }
    destruct (Z.eq_dec k (zlen l)) as [->|Hne].
    + assert (E : zget (l ++ [v]) (zlen l) = Ok v).
      { rewrite zget_app_r by lia. replace (zlen l - zlen l) with 0 by lia. reflexivity. }
      rewrite E in Hk. inversion Hk; subst w. rewrite <- Hr. apply (zget_zset_eq _ _ _ _ Hset).
    + rewrite zget_app_l in Hk by lia. rewrite (zget_zset_neq _ _ _ _ _ Hset); auto.
      rewrite Hr. intros E. symmetry in E. revert E. apply mod_neq; lia.
Qed.

Lemma dq_pop_front_repr d x l : dq_repr d (x :: l) ->
  dq_repr (dq_pop_front d) l /\ dq_cap (dq_pop_front d) = dq_cap d.
Proof.
  intros (Hc & Hd & Hf & Hs & Hl & Hr & He). unfold dq_pop_front. split; [|reflexivity].
  unfold dq_repr; cbn. rewrite wrap_down by lia. rewrite zlen_cons in *. pose proof (zlen_nonneg l).
  repeat split; try lia.
  - apply Z.mod_pos_bound; lia.
  - apply Z.mod_pos_bound; lia.
  - rewrite Hr. rewrite <- (Zminus_mod_idemp_l ((dq_f d - 1) mod dq_cap d - 1)).
    rewrite mod_sub1 by lia. rewrite Zminus_mod_idemp_l. f_equal. lia.
  - intros k v Hk. assert (Hk' : 0 <= k < zlen l) by (apply zget_inv in Hk; lia).
    specialize (He (k + 1) v).
    rewrite <- (Zminus_mod_idemp_l ((dq_f d - 1) mod dq_cap d - 1)).
    rewrite mod_sub1 by lia. rewrite Zminus_mod_idemp_l.
    replace (dq_f d - 1 - 1 - k) with (dq_f d - 1 - (k + 1)) by lia. apply He.
    change (x :: l) with ([x] ++ l). rewrite zget_app_r by (rewrite zlen_cons, zlen_nil; lia).
    rewrite zlen_cons, zlen_nil. replace (k + 1 - (1 + 0)) with k by lia.
    replace (k + 1 - (0 + 1)) with k by lia. auto.
Qed.

Lemma dq_pop_back_repr d l x : dq_repr d (l ++ [x]) ->
  exists d', dq_pop_back d = Ok d' /\ dq_repr d' l /\ dq_cap d' = dq_cap d.
Proof.
  intros (Hc & Hd & Hf & Hs & Hl & Hr & He). unfold dq_pop_back.
  destruct (dq_cap d =? 0) eqn:E; [lia|]. eexists. split; [reflexivity|]. split; [|reflexivity].
  rewrite zlen_snoc in *. unfold dq_repr; cbn.
  assert (Hr' : 0 <= dq_r d < dq_cap d) by (rewrite Hr; apply Z.mod_pos_bound; lia).
  rewrite wrap_up by lia. repeat split; try lia.
  - rewrite Hr, mod_add1 by lia. f_equal. lia.
  - intros k v Hk. apply He. rewrite zget_app_l; auto. apply zget_inv in Hk. lia.
Qed.

Lemma dq_front_repr d x l : dq_repr d (x :: l) -> dq_front d = Ok x.
Proof.
  intros (Hc & Hd & Hf & Hs & Hl & Hr & He). unfold dq_front. rewrite wrap_down by lia.
  unfold dq_read. specialize (He 0 x). rewrite Z.sub_0_r in He. rewrite He; reflexivity.
Qed.

Lemma dq_back_repr d l x : dq_repr d (l ++ [x]) -> dq_back d = Ok x.
Proof.
  intros (Hc & Hd & Hf & Hs & Hl & Hr & He). unfold dq_back.
  destruct (dq_cap d =? 0) eqn:E; [lia|].
  assert (Hr' : 0 <= dq_r d < dq_cap d) by (rewrite Hr; apply Z.mod_pos_bound; lia).
  rewrite wrap_up by lia. rewrite Hr, mod_add1 by lia. unfold dq_read.
  rewrite zlen_snoc. replace (dq_f d - 1 - (zlen l + 1) + 1) with (dq_f d - 1 - zlen l) by lia.
  rewrite (He (zlen l) x); [reflexivity|].
  rewrite zget_app_r by lia. replace (zlen l - zlen l) with 0 by lia. reflexivity.
Qed.

Lemma dq_empty_repr d l : dq_repr d l -> dq_empty d = true <-> l = [].
Proof.
  intros (Hc & Hd & Hf & Hs & Hl & Hr & He). unfold dq_empty. rewrite Hs. destruct l.
  - rewrite zlen_nil. split; auto.
  - rewrite zlen_cons. pose proof (zlen_nonneg l). split; [lia|discriminate].
Qed.

(** ** Histories. *)
Definition dq_step (o : qop) (d : deque) : outcome deque :=
  match o with
  | QPush v => dq_push_back d v
  | QPopFront => Ok (dq_pop_front d)
  | QPopBack => dq_pop_back d
  end.
Fixpoint dq_run (ops : list qop) (d : deque) : outcome deque :=
  match ops with
  | [] => Ok d
  | o :: ops' => d' <- dq_step o d ;; dq_run ops' d'
  end.

Lemma dq_step_repr o d l l' : dq_repr d l -> q_step (dq_cap d) o l = Some l' ->
  exists d', dq_step o d = Ok d' /\ dq_repr d' l' /\ dq_cap d' = dq_cap d.
Proof.
  intros H Hs. destruct o as [v| |]; cbn in *.
  - destruct (Z.ltb_spec (zlen l) (dq_cap d)); [|discriminate]. injection Hs as <-. now apply dq_push_repr.
  - destruct l as [|x l1]; [discriminate|]. injection Hs as <-. eexists; split; [reflexivity|].
    now apply (dq_pop_front_repr _ x).
  - destruct l as [|x l1]; [discriminate|]. injection Hs as <-.
    change (match l1 with [] => [] | _ :: _ => x :: removelast l1 end) with (removelast (x :: l1)).
    apply (dq_pop_back_repr _ _ (last (x :: l1) 0)).
    rewrite <- app_removelast_last by discriminate. exact H.
Qed.
Lemma dq_run_repr ops : forall d l l', dq_repr d l -> q_run (dq_cap d) ops l = Some l' ->
  exists d', dq_run ops d = Ok d' /\ dq_repr d' l' /\ dq_cap d' = dq_cap d.
Proof.
  induction ops as [|o ops IH]; intros d l l' H Hr; cbn in *.
  - injection Hr as <-. eauto.
  - destruct (q_step (dq_cap d) o l) as [l1|] eqn:E; [|discriminate].
    destruct (dq_step_repr o d l l1 H E) as (d1 & -> & H1 & C1). cbn [bind]. rewrite <- C1 in Hr.
    destruct (IH d1 l1 l' H1 Hr) as (d2 & E2 & H2 & C2). exists d2. split; auto. split; auto. congruence.
Qed.
Lemma dq_history cap ops l : 1 <= cap -> q_run cap ops [] = Some l ->
  exists d, dq_run ops (dq_new cap) = Ok d /\ dq_empty d = (match l with [] => true | _ => false end) /\
    (l <> [] -> dq_front d = Ok (hd 0 l) /\ dq_back d = Ok (last l 0)).
Proof.
  intros Hc Hr. destruct (dq_run_repr ops (dq_new cap) [] l (dq_new_repr cap Hc) Hr) as (d & E & H & C).
  exists d. split; auto. pose proof (dq_empty_repr _ _ H) as He. split.
  - destruct l; [now apply He|]. destruct (dq_empty d); auto. destruct He as (He & _). discriminate (He eq_refl).
  - intros Hn. split.
    + destruct l as [|x l]; [congruence|]. now apply (dq_front_repr _ _ l).
    + apply (dq_back_repr _ (removelast l)). now rewrite <- app_removelast_last.
Qed.
