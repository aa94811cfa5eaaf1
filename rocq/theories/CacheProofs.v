(** * The cached envelopes in such histories. *)
From Coq Require Import ZArith Bool Lia List.
From Verif Require Import Outcome Num Lemire Distance TimeSeries TsProofs SimProofs CacheSpec.
Import ListNotations.
Open Scope Z_scope.

Lemma slice_set_outside {A} (v : A) (l : list A) : forall p m n, (p < m \/ m + n <= p)%nat ->
  firstn n (skipn m (list_set l p v)) = firstn n (skipn m l).
Proof.
  induction l as [|x l IH]; intros p m n H; [now destruct p|].
  destruct p as [|p]; cbn [list_set].
  - destruct m as [|m]; [|reflexivity]. destruct n as [|n]; [reflexivity|lia].
  - destruct m as [|m]; cbn [skipn].
    + destruct n as [|n]; [reflexivity|]. cbn [firstn]. f_equal. exact (IH p 0%nat n ltac:(lia)).
    + apply IH. lia.
Qed.

Section CacheProofs.
Context (N : NumOps).
Local Notation T := (num N).

(** The same place in memory. *)
Definition same_place (t t' : ts N) : Prop :=
  ts_start t' = ts_start t /\ ts_len t' = ts_len t /\
  match ts_src t with View b p => ts_src t' = View b p | Owned _ => exists w, ts_src t' = Owned w | Null => ts_src t' = Null end.
Lemma place_refl t : same_place t t.
Proof. split; [reflexivity|]. split; [reflexivity|]. destruct (ts_src t); eauto. Qed.
Lemma place_trans t u v : same_place t u -> same_place u v -> same_place t v.
Proof.
  intros (A & B & C) (A' & B' & C'). split; [congruence|]. split; [congruence|]. destruct (ts_src t); [rewrite C in C'|destruct C as (w & C); rewrite C in C'|rewrite C in C']; eauto.
Qed.
Lemma same_same_place t t' : same_ts N t t' -> same_place t t'.
Proof. intros (A & _ & B & _ & C). split; [auto|]. split; [auto|]. rewrite <- A. destruct (ts_src t); eauto. Qed.
Lemma apart_place t t' u u' : same_place t t' -> same_place u u' -> apart N t u -> apart N t' u'.
Proof.
  intros (A & B & C) (A' & B' & C'). unfold apart. destruct (ts_src t); destruct (ts_src u); try (destruct C as (? & C)); try (destruct C' as (? & C')); rewrite C; try rewrite C'; auto; rewrite A, B, A', B'; auto.
Qed.
Lemma apart_sym t u : apart N t u -> apart N u t.
Proof. unfold apart. destruct (ts_src t), (ts_src u); auto. intros [H|[H|H]]; auto. Qed.

Definition keeps_outside (t : ts N) (h h' : heap N) : Prop := forall u, apart N t u -> ts_read N h' u = ts_read N h u.

Lemma write_spec h t i v h' t' : 0 <= i < ts_len t -> ts_write N h t i v = Ok (h', t') ->
  same_place t t' /\ keeps_outside t h h'.
Proof.
  intros Hi. unfold ts_write. destruct (ts_src t) as [b p|w|] eqn:Es; [| |discriminate].
  - intros E. apply bind_Ok_inv in E as (l & El & E). apply bind_Ok_inv in E as (l' & El' & E). injection E as <- <-.
    split; [apply place_refl|]. intros u Hu. unfold apart in Hu. rewrite Es in Hu. unfold ts_read. destruct (ts_src u) as [c q|w|]; auto.
    apply zset_inv in El' as (Hp & ->).
    assert (Hb : (b < length h)%nat). { unfold heap_get in El. apply nth_error_Some. destruct (nth_error h b); [discriminate|discriminate El]. }
    destruct (Nat.eq_dec b c) as [<-|Hn].
    + unfold heap_get in *. rewrite list_set_nth_error_eq by auto. destruct (nth_error h b) as [[l0|]|]; try discriminate. injection El as ->. cbn [bind].
      unfold window. destruct (Z.leb_spec (ts_len u) 0); auto. replace (zlen (list_set l (Z.to_nat (p + ts_start t + i)) v)) with (zlen l) by (unfold zlen; now rewrite list_set_length).
      destruct (Z.ltb_spec (q + ts_start u) 0); cbn [orb]; auto. destruct (Z.ltb_spec (zlen l) (q + ts_start u + ts_len u)); auto.
      f_equal. unfold zslice. apply slice_set_outside. destruct Hu as [Hu|[Hu|Hu]]; [congruence|left; lia|right; lia].
    + unfold heap_get. rewrite list_set_nth_error_neq by auto. reflexivity.
  - intros E. apply bind_Ok_inv in E as (w' & _ & E). injection E as <- <-. split; [|intros u _; reflexivity].
    split; [reflexivity|]. split; [reflexivity|]. rewrite Es. cbn. eauto.
Qed.
Lemma plus_spec h t o h' t' : ts_plus_assign N h t o = Ok (h', t') -> same_place t t' /\ keeps_outside t h h' /\ ts_cache t' = None.
Proof.
  unfold ts_plus_assign. destruct (negb _); [discriminate|]. intros E. apply bind_Ok_inv in E as ((h1 & t1) & E1 & E). injection E as <- <-.
  pose proof (for_Ok_inv (fun s : heap N * ts N => same_place t (snd s) /\ keeps_outside t h (fst s)) _ _ _ _ _ E1) as F. cbn [fst snd] in F.
  destruct F as (A & B).
  - split; [apply place_refl|intros u _; reflexivity].
  - intros i (h2 & t2) (h3 & t3) Hi E (A & B). cbn [fst snd] in *. apply bind_Ok_inv in E as (y & _ & E). apply bind_Ok_inv in E as (x & _ & E).
    apply write_spec in E as (C & D); [|destruct A as (_ & -> & _); exact Hi].
    split; [eapply place_trans; eauto|]. intros u Hu. rewrite D; [auto|]. eapply apart_place; [exact A|apply place_refl|exact Hu].
  - split; [eapply place_trans; [exact A|]|split; [exact B|reflexivity]]. split; [reflexivity|]. split; [reflexivity|]. cbn. destruct (ts_src t1); eauto.
Qed.

Definition coherent (s : heap N * list (ts N)) : Prop :=
  all_apart N (snd s) /\ forall i t, nth_error (snd s) i = Some t -> cache_ok N (fst s) t.

Lemma apart_set l i t t' : all_apart N l -> nth_error l i = Some t -> same_place t t' -> all_apart N (list_set l i t').
Proof.
  intros H Hi S a b x y Hab Ha Hb.
  assert (Hl : (i < length l)%nat) by (apply nth_error_Some; congruence).
  destruct (Nat.eq_dec i a) as [<-|Ha']; [rewrite list_set_nth_error_eq in Ha by auto|rewrite list_set_nth_error_neq in Ha by auto];
  (destruct (Nat.eq_dec i b) as [<-|Hb']; [rewrite list_set_nth_error_eq in Hb by auto|rewrite list_set_nth_error_neq in Hb by auto]); try congruence.
  - injection Ha as <-. exact (apart_place _ _ _ _ S (place_refl y) (H i b t y Hab Hi Hb)).
  - injection Hb as <-. exact (apart_place _ _ _ _ (place_refl x) S (H a i x t Hab Ha Hi)).
  - exact (H a b x y Hab Ha Hb).
Qed.
Lemma cstep_coherent s o s' : coherent s -> cstep N s o = Some s' -> coherent s'.
Proof.
  destruct s as (h & l). intros (A & C) E. cbn [fst snd] in *. destruct o as [i band|i j]; cbn [cstep] in E.
  - destruct (nth_error l i) as [t|] eqn:Hi; [|discriminate]. assert (Hl : (i < length l)%nat) by (apply nth_error_Some; congruence).
    destruct (ts_envelope N h t band) as [(t' & r)| | |] eqn:Ee; try discriminate; injection E as <-; [|split; auto].
    apply envelope_sim in Ee as (S & K). split; cbn [fst snd].
    + eapply apart_set; eauto. now apply same_same_place.
    + intros k u Hk. destruct (Nat.eq_dec i k) as [<-|Hn]; [rewrite list_set_nth_error_eq in Hk by auto|rewrite list_set_nth_error_neq in Hk by auto]; [|eauto].
      injection Hk as <-. apply K. eapply C; eauto.
  - destruct (nth_error l i) as [t|] eqn:Hi; [|discriminate]. assert (Hl : (i < length l)%nat) by (apply nth_error_Some; congruence).
    destruct (nth_error l j) as [o|] eqn:Hj; [|discriminate].
    destruct (ts_plus_assign N h t o) as [(h' & t')| | |] eqn:Ee; try discriminate; injection E as <-; [|split; auto].
    apply plus_spec in Ee as (S & K & Cn). split; cbn [fst snd].
    + eapply apart_set; eauto.
    + intros k u Hk. destruct (Nat.eq_dec i k) as [<-|Hn]; [rewrite list_set_nth_error_eq in Hk by auto|rewrite list_set_nth_error_neq in Hk by auto].
      * injection Hk as <-. now apply cache_None.
      * pose proof (C k u Hk) as Q. unfold cache_ok in *. destruct (ts_cache u); auto. rewrite K; auto. exact (A i k t u Hn Hi Hk).
Qed.
Theorem crun_coherent ops : forall s s', coherent s -> crun N s ops = Some s' -> coherent s'.
Proof.
  induction ops as [|o ops IH]; intros s s' C E; cbn in E; [now injection E as <-|].
  destruct (cstep N s o) as [s1|] eqn:Es; [|discriminate]. eapply IH; [|exact E]. eapply cstep_coherent; eauto.
Qed.
End CacheProofs.
