(** * The series of values are refined by the series of pointers: proofs. *)
From Coq Require Import ZArith Bool Lia String List.
From Verif Require Import Outcome Num Lemire Deque Distance TimeSeries SeriesMem SeriesSpec.
Import ListNotations.
Open Scope Z_scope.

Inductive who : Type := WLeak | WBuf (b : nat) | WData (i : nat) | WLow (i : nat) | WUp (i : nat).
Definition is_leak (w : option who) : bool := match w with Some WLeak => true | _ => false end.
Definition leaks (own : list (option who)) : Z := zlen (filter is_leak own).

Lemma leaks_set own b w w' : nth_error own b = Some w ->
  leaks (list_set own b w') = leaks own - (if is_leak w then 1 else 0) + (if is_leak w' then 1 else 0).
Proof.
  revert b. induction own as [|x own IH]; intros [|b] E; try discriminate; cbn [list_set].
  - injection E as ->. unfold leaks. cbn [filter]. destruct (is_leak w), (is_leak w'); rewrite ?zlen_cons; lia.
  - unfold leaks in *. cbn [filter]. specialize (IH b E). destruct (is_leak x); rewrite ?zlen_cons; lia.
Qed.
Lemma leaks_app own w : leaks (own ++ [w]) = leaks own + (if is_leak w then 1 else 0).
Proof. unfold leaks. rewrite filter_app, zlen_app. cbn [filter]. destruct (is_leak w); reflexivity. Qed.

(** Setting several entries. *)
Fixpoint set_all (own : list (option who)) (l : list (nat * who)) : list (option who) :=
  match l with [] => own | (b, w) :: l => set_all (list_set own b (Some w)) l end.
Lemma set_all_length l : forall own, length (set_all own l) = length own.
Proof. induction l as [|(b & w) l IH]; intros own; cbn; auto. now rewrite IH, list_set_length. Qed.
Lemma set_all_out l : forall own b, ~ In b (map fst l) -> nth_error (set_all own l) b = nth_error own b.
Proof.
  induction l as [|(c & w) l IH]; intros own b H; cbn in *; auto. rewrite IH by tauto. apply list_set_nth_error_neq. tauto.
Qed.
Lemma set_all_in l : forall own b w, NoDup (map fst l) -> In (b, w) l -> (b < length own)%nat -> nth_error (set_all own l) b = Some (Some w).
Proof.
  induction l as [|(c & x) l IH]; intros own b w Hn H Hb; cbn in *; [tauto|]. destruct H as [E|H].
  - injection E as -> ->. inversion Hn; subst. rewrite set_all_out by auto. now apply list_set_nth_error_eq.
  - inversion Hn; subst. apply IH; auto. now rewrite list_set_length.
Qed.
Lemma set_all_leaks l : forall own, NoDup (map fst l) -> (forall b w, In (b, w) l -> nth_error own b = Some (Some WLeak) /\ w <> WLeak) ->
  leaks (set_all own l) = leaks own - zlen l.
Proof.
  induction l as [|(c & x) l IH]; intros own Hn H; cbn [set_all]; [rewrite zlen_nil; lia|]. inversion Hn; subst. rewrite IH; auto.
  - destruct (H c x (or_introl eq_refl)) as (E & Hx). rewrite (leaks_set _ _ _ _ E), zlen_cons. destruct x; cbn [is_leak]; try congruence; lia.
  - intros b w Hin. destruct (H b w (or_intror Hin)) as (E & Hw). split; auto. rewrite list_set_nth_error_neq; auto.
    intros ->. apply H2. apply in_map_iff. exists (b, w). auto.
Qed.
Fixpoint release_all (own : list (option who)) (l : list (nat * who)) : list (option who) :=
  match l with [] => own | (b, _) :: l => release_all (list_set own b (Some WLeak)) l end.
Lemma release_all_length l : forall own, length (release_all own l) = length own.
Proof. induction l as [|(b & w) l IH]; intros own; cbn; auto. now rewrite IH, list_set_length. Qed.
Lemma release_all_out l : forall own b, ~ In b (map fst l) -> nth_error (release_all own l) b = nth_error own b.
Proof.
  induction l as [|(c & w) l IH]; intros own b H; cbn in *; auto. rewrite IH by tauto. apply list_set_nth_error_neq. tauto.
Qed.
Lemma release_all_in l : forall own b, In b (map fst l) -> (b < length own)%nat -> nth_error (release_all own l) b = Some (Some WLeak).
Proof.
  induction l as [|(c & x) l IH]; intros own b H Hb; cbn in *; [tauto|].
  destruct (in_dec Nat.eq_dec b (map fst l)) as [Hi|Hi].
  - apply IH; auto. now rewrite list_set_length.
  - destruct H as [->|H]; [|tauto]. rewrite release_all_out by auto. now apply list_set_nth_error_eq.
Qed.
Lemma release_all_leaks l : forall own, NoDup (map fst l) -> (forall b w, In (b, w) l -> nth_error own b = Some (Some w) /\ w <> WLeak) ->
  leaks (release_all own l) = leaks own + zlen l.
Proof.
  induction l as [|(c & x) l IH]; intros own Hn H; cbn [release_all]; [rewrite zlen_nil; lia|]. inversion Hn; subst. rewrite IH; auto.
  - destruct (H c x (or_introl eq_refl)) as (E & Hx). rewrite (leaks_set _ _ _ _ E), zlen_cons. destruct x; cbn [is_leak]; try congruence; lia.
  - intros b w Hin. destruct (H b w (or_intror Hin)) as (E & Hw). split; auto. rewrite list_set_nth_error_neq; auto.
    intros ->. apply H2. apply in_map_iff. exists (b, w). auto.
Qed.

Section SeriesProofs.
Context (N : NumOps).
Local Notation T := (num N).
Local Notation heap := (heap N).
Local Notation ts := (ts N).
Local Notation mem := (mem N).

(** The blocks an object must free. *)
Definition claims (i : nat) (o : obj) : list (nat * who) :=
  (if o_owner o then match o_data o with Some (b, _) => [(b, WData i)] | None => [] end else []) ++
  match o_lower o with Some b => [(b, WLow i)] | None => [] end ++
  match o_upper o with Some b => [(b, WUp i)] | None => [] end.
Definition data_rep (m : mem) (bufs : list nat) (o : obj) (t : ts) : Prop :=
  match ts_src t with
  | View b base => o_owner o = false /\ exists p, nth_error bufs b = Some p /\ o_data o = Some (p, base)
  | Owned v => o_owner o = true /\ o_start o = 0 /\ zlen v = o_len o /\
      exists p, o_data o = Some (p, 0) /\ nth_error m p = Some (Some (map Some v))
  | Null => o_data o = None
  end.
Definition cache_rep (m : mem) (o : obj) (t : ts) : Prop :=
  match ts_cache t with
  | None => o_valid o = false
  | Some c => o_valid o = true /\ o_band o = kc_band c /\ exists l u, o_lower o = Some l /\ o_upper o = Some u /\
      nth_error m l = Some (Some (kc_lower c)) /\ nth_error m u = Some (Some (kc_upper c))
  end.
Definition rep (m : mem) (bufs : list nat) (o : obj) (t : ts) : Prop :=
  (o_index o = ts_index t /\ o_start o = ts_start t /\ o_end o = ts_end t /\ o_len o = ts_len t) /\ data_rep m bufs o t /\ cache_rep m o t.

(** Every block that is still allocated belongs to one owner; objects in [X] are being changed and own nothing. *)
Record good (X : list nat) (own : list (option who)) (m : mem) (bufs : list nat) (objs : list (option obj)) (h : heap) (ss : list (option ts)) : Prop := {
  g_len : length own = length m;
  g_dead : forall b, nth_error own b = Some None <-> nth_error m b = Some None;
  g_bufs : length bufs = length h;
  g_buf : forall b p, nth_error bufs b = Some p ->
    match nth_error h b with
    | Some (Some l) => nth_error m p = Some (Some (map Some l)) /\ nth_error own p = Some (Some (WBuf b))
    | Some None => nth_error m p = Some None
    | None => False
    end;
  g_objs : length objs = length ss;
  g_obj : forall i, ~ In i X -> match nth_error objs i, nth_error ss i with
    | Some (Some o), Some (Some t) => rep m bufs o t /\ forall b w, In (b, w) (claims i o) -> nth_error own b = Some (Some w)
    | Some (Some _), _ | _, Some (Some _) => False
    | _, _ => True
    end;
  g_own : forall b w, nth_error own b = Some (Some w) -> w = WLeak \/ (exists k l, w = WBuf k /\ nth_error bufs k = Some b /\ nth_error h k = Some (Some l)) \/
    (exists i o, ~ In i X /\ nth_error objs i = Some (Some o) /\ In (b, w) (claims i o))
}.

Lemma claims_tag i o b w : In (b, w) (claims i o) -> w = WData i \/ w = WLow i \/ w = WUp i.
Proof.
  unfold claims. rewrite !in_app_iff. intros [H|[H|H]].
  - destruct (o_owner o); [|destruct H]. destruct (o_data o) as [(p & q)|]; [|destruct H]. destruct H as [H|[]]. injection H as _ <-. auto.
  - destruct (o_lower o); [|destruct H]. destruct H as [H|[]]. injection H as _ <-. auto.
  - destruct (o_upper o); [|destruct H]. destruct H as [H|[]]. injection H as _ <-. auto.
Qed.
Lemma claims_nodup i o own : (forall b w, In (b, w) (claims i o) -> nth_error own b = Some (Some w)) -> NoDup (map fst (claims i o)).
Proof.
  unfold claims. intros H.
  assert (HD : forall b w w', In (b, w) (claims i o) -> In (b, w') (claims i o) -> w = w').
  { intros b w w' H1 H2. apply H in H1. apply H in H2. congruence. }
  unfold claims in HD. destruct (o_owner o); [destruct (o_data o) as [(p & q)|]|]; destruct (o_lower o) as [l|]; destruct (o_upper o) as [u|]; cbn [app map fst] in *;
    repeat constructor; cbn [In]; intros Hin; repeat destruct Hin as [Hin|Hin]; subst; try tauto;
    match goal with
    | HD : forall b w w', In (b, w) [(?p, ?x); (?p, ?y)] -> _ |- _ => specialize (HD p x y (or_introl eq_refl) (or_intror (or_introl eq_refl))); discriminate
    | HD : forall b w w', In (b, w) [(?p, ?x); (?q, ?z); (?p, ?y)] -> _ |- _ => specialize (HD p x y (or_introl eq_refl) (or_intror (or_intror (or_introl eq_refl)))); discriminate
    | HD : forall b w w', In (b, w) [(?p, ?x); (?p, ?z); ?r] -> _ |- _ => specialize (HD p x z (or_introl eq_refl) (or_intror (or_introl eq_refl))); discriminate
    | HD : forall b w w', In (b, w) [?r; (?p, ?x); (?p, ?z)] -> _ |- _ => specialize (HD p x z (or_intror (or_introl eq_refl)) (or_intror (or_intror (or_introl eq_refl)))); discriminate
    end.
Qed.

(** [rep] only looks at the blocks the object claims. *)
Lemma rep_frame m m' bufs i o t : rep m bufs o t -> (forall b w, In (b, w) (claims i o) -> nth_error m' b = nth_error m b) -> rep m' bufs o t.
Proof.
  intros (Hf & Hd & Hc) H. split; auto. unfold claims in H. split.
  - unfold data_rep in *. destruct (ts_src t) as [b base|v|]; auto. destruct Hd as (A & B & C & p & Ep & Em).
    split; auto. split; auto. split; auto. exists p. split; auto. rewrite A, Ep in H. rewrite (H p (WData i)); auto. apply in_app_iff. left. left. reflexivity.
  - unfold cache_rep in *. destruct (ts_cache t) as [c|]; auto. destruct Hc as (A & B & l & u & El & Eu & Ml & Mu).
    split; auto. split; auto. exists l, u. split; auto. split; auto. rewrite El, Eu in H.
    rewrite (H l (WLow i)), (H u (WUp i)); auto; rewrite !in_app_iff; right; [right|left]; left; reflexivity.
Qed.

Section Good.
Context (X : list nat) (own : list (option who)) (m : mem) (bufs : list nat) (objs : list (option obj)) (h : heap) (ss : list (option ts)).
Hypothesis G : good X own m bufs objs h ss.

Lemma own_live b w : nth_error own b = Some (Some w) -> exists l, nth_error m b = Some (Some l).
Proof.
  intros E. destruct (nth_error m b) as [[l|]|] eqn:Em; [eauto| |].
  - apply (g_dead _ _ _ _ _ _ _ G) in Em. congruence.
  - apply nth_error_None in Em. assert (b < length own)%nat by (apply nth_error_Some; congruence). rewrite (g_len _ _ _ _ _ _ _ G) in *. lia.
Qed.
(** A new block, owned by nobody yet. *)
Lemma good_alloc l : good X (own ++ [Some WLeak]) (m ++ [Some l]) bufs objs h ss.
Proof.
  pose proof (g_len _ _ _ _ _ _ _ G) as L.
  assert (A : forall b w, nth_error own b = Some w -> nth_error (own ++ [Some WLeak]) b = Some w).
  { intros b w E. rewrite nth_error_app1; auto. apply nth_error_Some. congruence. }
  assert (B : forall b w, nth_error m b = Some w -> nth_error (m ++ [Some l]) b = Some w).
  { intros b w E. rewrite nth_error_app1; auto. apply nth_error_Some. congruence. }
  destruct G. split; auto.
  - rewrite !app_length. cbn. lia.
  - intros b. destruct (Nat.lt_ge_cases b (length own)) as [Hb|Hb].
    + rewrite !nth_error_app1 by lia. apply g_dead0.
    + rewrite !nth_error_app2 by lia. rewrite L. destruct (b - length m)%nat as [|k]; cbn; [split; discriminate|]. destruct k; split; discriminate.
  - intros b p E. specialize (g_buf0 b p E). destruct (nth_error h b) as [[l'|]|]; auto. destruct g_buf0. auto.
  - intros i Hi. specialize (g_obj0 i Hi). destruct (nth_error objs i) as [[o|]|]; auto. destruct (nth_error ss i) as [[t|]|]; auto. destruct g_obj0 as (R & C).
    split; [|intros b w Hin; apply A; auto]. apply (rep_frame m _ bufs i); auto. intros b w Hin. apply C in Hin.
    assert (b < length m)%nat by (rewrite <- L; apply nth_error_Some; congruence). now rewrite nth_error_app1.
  - intros b w E. destruct (Nat.lt_ge_cases b (length own)) as [Hb|Hb].
    + rewrite nth_error_app1 in E by auto. auto.
    + rewrite nth_error_app2 in E by auto. destruct (b - length own)%nat as [|k]; [injection E as <-; auto|]. destruct k; discriminate.
Qed.
(** Changing or freeing a block owned by nobody. *)
Lemma good_write b l : nth_error own b = Some (Some WLeak) -> good X own (list_set m b (Some l)) bufs objs h ss.
Proof.
  intros E. pose proof (g_len _ _ _ _ _ _ _ G) as L. assert (Hb : (b < length m)%nat) by (rewrite <- L; apply nth_error_Some; congruence).
  destruct (own_live b _ E) as (l0 & El0). destruct G. split; auto.
  - now rewrite list_set_length.
  - intros c. destruct (Nat.eq_dec b c) as [<-|Hn]; [|rewrite list_set_nth_error_neq; auto]. rewrite list_set_nth_error_eq by auto. rewrite E. split; discriminate.
  - intros k p Ep. specialize (g_buf0 k p Ep). destruct (nth_error h k) as [[l'|]|]; auto.
    + destruct g_buf0 as (A & B). split; auto. rewrite list_set_nth_error_neq; auto. intros ->. congruence.
    + rewrite list_set_nth_error_neq; auto. intros ->. congruence.
  - intros i Hi. specialize (g_obj0 i Hi). destruct (nth_error objs i) as [[o|]|]; auto. destruct (nth_error ss i) as [[t|]|]; auto. destruct g_obj0 as (R & C).
    split; auto. apply (rep_frame m _ bufs i); auto. intros c w Hin. rewrite list_set_nth_error_neq; auto. intros ->. apply C in Hin as Hc.
    apply claims_tag in Hin. rewrite E in Hc. injection Hc as <-. destruct Hin as [X0|[X0|X0]]; discriminate.
Qed.
Lemma good_free b : nth_error own b = Some (Some WLeak) -> good X (list_set own b None) (list_set m b None) bufs objs h ss.
Proof.
  intros E. pose proof (g_len _ _ _ _ _ _ _ G) as L. assert (Hb : (b < length m)%nat) by (rewrite <- L; apply nth_error_Some; congruence).
  destruct (own_live b _ E) as (l0 & El0). destruct G. split; auto.
  - now rewrite !list_set_length.
  - intros c. destruct (Nat.eq_dec b c) as [<-|Hn]; [|rewrite !list_set_nth_error_neq; auto]. rewrite !list_set_nth_error_eq by (rewrite ?L; auto). tauto.
  - intros k p Ep. specialize (g_buf0 k p Ep). destruct (nth_error h k) as [[l'|]|]; auto.
    + destruct g_buf0 as (A & B). assert (b <> p) by (intros ->; congruence). rewrite !list_set_nth_error_neq; auto.
    + assert (b <> p) by (intros ->; congruence). rewrite !list_set_nth_error_neq; auto.
  - intros i Hi. specialize (g_obj0 i Hi). destruct (nth_error objs i) as [[o|]|]; auto. destruct (nth_error ss i) as [[t|]|]; auto. destruct g_obj0 as (R & C).
    assert (Hne : forall c w, In (c, w) (claims i o) -> b <> c).
    { intros c w Hin ->. apply C in Hin as Hc. apply claims_tag in Hin. rewrite E in Hc. injection Hc as <-. destruct Hin as [X0|[X0|X0]]; discriminate. }
    split.
    + apply (rep_frame m _ bufs i); auto. intros c w Hin. rewrite list_set_nth_error_neq; eauto.
    + intros c w Hin. rewrite list_set_nth_error_neq; eauto.
  - intros c w Ec. destruct (Nat.eq_dec b c) as [<-|Hn]; [rewrite list_set_nth_error_eq in Ec by (rewrite L; auto); discriminate|].
    rewrite list_set_nth_error_neq in Ec; auto.
Qed.
(** Take an object out: what it owned is owned by nobody. *)
Lemma good_release i o t : ~ In i X -> nth_error objs i = Some (Some o) -> nth_error ss i = Some (Some t) ->
  good (i :: X) (release_all own (claims i o)) m bufs objs h ss /\ leaks (release_all own (claims i o)) = leaks own + zlen (claims i o) /\
  (forall b w, In (b, w) (claims i o) -> nth_error (release_all own (claims i o)) b = Some (Some WLeak)) /\ NoDup (map fst (claims i o)).
Proof.
  intros Hi Eo Et. pose proof (g_obj _ _ _ _ _ _ _ G i Hi) as Hr. rewrite Eo, Et in Hr. destruct Hr as (Hr & Hc).
  pose proof (claims_nodup i o own Hc) as Hnd. set (own' := release_all own (claims i o)).
  assert (Hlt : forall b w, In (b, w) (claims i o) -> (b < length own)%nat) by (intros b w H; apply Hc in H; apply nth_error_Some; congruence).
  assert (Hin : forall b w, In (b, w) (claims i o) -> nth_error own' b = Some (Some WLeak)).
  { intros b w H. apply release_all_in; [apply in_map_iff; exists (b, w); auto|eauto]. }
  assert (Hd : forall b, (exists w, In (b, w) (claims i o)) \/ (nth_error own' b = nth_error own b /\ ~ In b (map fst (claims i o)))).
  { intros b. destruct (in_dec Nat.eq_dec b (map fst (claims i o))) as [H|H].
    - apply in_map_iff in H as ((b' & w) & <- & H). left. exists w. auto.
    - right. split; auto. now apply release_all_out. }
  split; [|split; [|auto]].
  - destruct G. split; auto.
    + unfold own'. now rewrite release_all_length.
    + intros b. destruct (Hd b) as [(w & H)|(-> & _)]; [|auto]. rewrite (Hin b w H). apply Hc in H. split; [discriminate|]. intros E.
      apply g_dead0 in E. congruence.
    + intros b p E. specialize (g_buf0 b p E). destruct (nth_error h b) as [[l|]|]; auto. destruct g_buf0 as (A & B). split; auto.
      destruct (Hd p) as [(w & H)|(-> & _)]; auto. apply Hc in H as H'. apply claims_tag in H. rewrite B in H'. injection H' as <-. destruct H as [Q|[Q|Q]]; discriminate.
    + intros k Hk. cbn [In] in Hk. specialize (g_obj0 k ltac:(tauto)). destruct (nth_error objs k) as [[o'|]|]; auto. destruct (nth_error ss k) as [[t'|]|]; auto.
      destruct g_obj0 as (R & C). split; auto. intros b w H. destruct (Hd b) as [(w' & H')|(-> & _)]; auto. apply Hc in H' as Q'. apply C in H as Q.
      apply claims_tag in H, H'. rewrite Q in Q'. injection Q' as <-. exfalso. apply Hk. left. destruct H as [H|[H|H]]; destruct H' as [H'|[H'|H']]; congruence.
    + intros b w E. destruct (Hd b) as [(w' & H)|(E' & Hnb)].
      * rewrite (Hin b w' H) in E. injection E as <-. auto.
      * rewrite E' in E. destruct (g_own0 b w E) as [->|[H|(k & o' & Hk & Ek & H)]]; auto. right. right. exists k, o'. split; auto.
        cbn [In]. intros [<-|Q]; [|tauto]. rewrite Eo in Ek. injection Ek as <-. apply Hnb. apply in_map_iff. exists (b, w). auto.
  - apply release_all_leaks; auto. intros b w H. split; auto. apply claims_tag in H. destruct H as [H|[H|H]]; subst; discriminate.
Qed.
End Good.
(** Put an object back that owns blocks that nobody owned. *)
Lemma good_finish X own m bufs objs h ss i o t : good (i :: X) own m bufs objs h ss -> ~ In i X -> (i < length objs)%nat ->
  rep m bufs o t -> NoDup (map fst (claims i o)) -> (forall b w, In (b, w) (claims i o) -> nth_error own b = Some (Some WLeak)) ->
  good X (set_all own (claims i o)) m bufs (list_set objs i (Some o)) h (list_set ss i (Some t)) /\
  leaks (set_all own (claims i o)) = leaks own - zlen (claims i o).
Proof.
  intros G Hi Hl Hr Hnd Hc.
  assert (Hlt : forall b w, In (b, w) (claims i o) -> (b < length own)%nat) by (intros b w H; apply Hc in H; apply nth_error_Some; congruence).
  assert (Hin : forall b w, In (b, w) (claims i o) -> nth_error (set_all own (claims i o)) b = Some (Some w)) by (intros b w H; apply set_all_in; eauto).
  assert (Hd : forall b, (exists w, In (b, w) (claims i o)) \/ nth_error (set_all own (claims i o)) b = nth_error own b).
  { intros b. destruct (in_dec Nat.eq_dec b (map fst (claims i o))) as [H|H].
    - apply in_map_iff in H as ((b' & w) & <- & H). left. exists w. auto.
    - right. now apply set_all_out. }
  split.
  - destruct G. split; auto.
    + now rewrite set_all_length.
    + intros b. destruct (Hd b) as [(w & H)| ->]; auto. rewrite (Hin b w H). apply Hc in H. split; [discriminate|]. intros E. apply g_dead0 in E. congruence.
    + intros b p E. specialize (g_buf0 b p E). destruct (nth_error h b) as [[l|]|]; auto. destruct g_buf0 as (A & B). split; auto.
      destruct (Hd p) as [(w & H)| ->]; auto. apply Hc in H. congruence.
    + now rewrite !list_set_length.
    + intros k Hk. destruct (Nat.eq_dec i k) as [<-|Hn].
      * rewrite !list_set_nth_error_eq by lia. auto.
      * rewrite !list_set_nth_error_neq by auto. specialize (g_obj0 k). cbn [In] in g_obj0. specialize (g_obj0 ltac:(tauto)).
        destruct (nth_error objs k) as [[o'|]|]; auto. destruct (nth_error ss k) as [[t'|]|]; auto. destruct g_obj0 as (R & C). split; auto.
        intros b w H. destruct (Hd b) as [(w' & H')| ->]; auto. apply Hc in H'. apply C in H as Q. rewrite H' in Q. injection Q as <-.
        apply claims_tag in H. destruct H as [Q|[Q|Q]]; discriminate.
    + intros b w E. destruct (Hd b) as [(w' & H)|E'].
      * rewrite (Hin b w' H) in E. injection E as <-. right. right. exists i, o. split; auto. split; auto. apply list_set_nth_error_eq. lia.
      * rewrite E' in E. destruct (g_own0 b w E) as [->|[H|(k & o' & Hk & Ek & H)]]; auto. right. right. exists k, o'. cbn [In] in Hk. split; [tauto|].
        split; auto. rewrite list_set_nth_error_neq; auto.
  - apply set_all_leaks; auto. intros b w H. split; eauto. apply claims_tag in H. destruct H as [H|[H|H]]; subst; discriminate.
Qed.
Lemma good_gone X own m bufs objs h ss i : good (i :: X) own m bufs objs h ss -> ~ In i X -> (i < length objs)%nat ->
  good X own m bufs (list_set objs i None) h (list_set ss i None).
Proof.
  intros G Hi Hl. destruct G. split; auto.
  - now rewrite !list_set_length.
  - intros k Hk. destruct (Nat.eq_dec i k) as [<-|Hn].
    + rewrite !list_set_nth_error_eq by lia. auto.
    + rewrite !list_set_nth_error_neq by auto. apply g_obj0. cbn [In]. tauto.
  - intros b w E. destruct (g_own0 b w E) as [->|[H|(k & o' & Hk & Ek & H)]]; auto. right. right. exists k, o'. cbn [In] in Hk. split; [tauto|].
    split; auto. rewrite list_set_nth_error_neq; auto.
Qed.
(** A slot for a new object. *)
Lemma good_slot X own m bufs objs h ss x y : good X own m bufs objs h ss -> ~ In (length objs) X ->
  good (length objs :: X) own m bufs (objs ++ [x]) h (ss ++ [y]).
Proof.
  intros G Hi. destruct G. split; auto.
  - rewrite !app_length. cbn. lia.
  - intros k Hk. cbn [In] in Hk. destruct (Nat.lt_ge_cases k (length objs)) as [Hb|Hb].
    + rewrite !nth_error_app1 by lia. apply g_obj0. tauto.
    + rewrite !(proj2 (nth_error_None _ _)); auto; rewrite app_length; cbn; lia.
  - intros b w E. destruct (g_own0 b w E) as [->|[H|(k & o' & Hk & Ek & H)]]; auto. right. right. exists k, o'.
    assert (k < length objs)%nat by (apply nth_error_Some; congruence). cbn [In]. split; [intros [?|?]; [lia|tauto]|]. split; auto. now rewrite nth_error_app1.
Qed.

(** Datasets' arrays. *)
Lemma good_newbuf own m bufs objs h ss l : good [] own m bufs objs h ss ->
  good [] (own ++ [Some (WBuf (length bufs))]) (m ++ [Some (map Some l)]) (bufs ++ [length m]) objs (h ++ [Some l]) ss.
Proof.
  intros G. pose proof (g_len _ _ _ _ _ _ _ G) as L. pose proof (g_bufs _ _ _ _ _ _ _ G) as Lb.
  assert (A : forall b w, nth_error own b = Some w -> nth_error (own ++ [Some (WBuf (length bufs))]) b = Some w).
  { intros b w E. rewrite nth_error_app1; auto. apply nth_error_Some. congruence. }
  assert (B : forall b w, nth_error m b = Some w -> nth_error (m ++ [Some (map Some l)]) b = Some w).
  { intros b w E. rewrite nth_error_app1; auto. apply nth_error_Some. congruence. }
  destruct G. split; auto.
  - rewrite !app_length. cbn. lia.
  - intros b. destruct (Nat.lt_ge_cases b (length own)) as [Hb|Hb].
    + rewrite !nth_error_app1 by lia. apply g_dead0.
    + rewrite !nth_error_app2 by lia. rewrite L. destruct (b - length m)%nat as [|k]; cbn; [split; discriminate|]. destruct k; split; discriminate.
  - rewrite !app_length. cbn. lia.
  - intros b p E. destruct (Nat.lt_ge_cases b (length bufs)) as [Hb|Hb].
    + rewrite nth_error_app1 in E by lia. rewrite nth_error_app1 by lia. specialize (g_buf0 b p E). destruct (nth_error h b) as [[l'|]|]; auto. destruct g_buf0. auto.
    + rewrite nth_error_app2 in E by lia. rewrite nth_error_app2 by lia. rewrite <- Lb. destruct (b - length bufs)%nat as [|k] eqn:Ek; cbn in *; [|destruct k; discriminate].
      injection E as <-. assert (b = length bufs) by lia. subst b. split.
      * rewrite nth_error_app2, Nat.sub_diag by lia. reflexivity.
      * rewrite nth_error_app2 by lia. rewrite L, Nat.sub_diag. reflexivity.
  - intros i Hi. specialize (g_obj0 i Hi). destruct (nth_error objs i) as [[o|]|]; auto. destruct (nth_error ss i) as [[t|]|]; auto. destruct g_obj0 as (R & C).
    split; [|intros b w Hin; apply A; auto]. assert (R' : rep (m ++ [Some (map Some l)]) bufs o t).
    { apply (rep_frame m _ bufs i); auto. intros b w Hin. apply C in Hin.
      assert (b < length m)%nat by (rewrite <- L; apply nth_error_Some; congruence). now rewrite nth_error_app1. }
    destruct R' as (R1 & R2 & R3). split; auto. split; auto. unfold data_rep in *. destruct (ts_src t) as [b base|w|]; auto.
    destruct R2 as (Q & p & Ep & Ed). split; auto. exists p. split; auto. rewrite nth_error_app1; auto. apply nth_error_Some. congruence.
  - intros b w E. destruct (Nat.lt_ge_cases b (length own)) as [Hb|Hb].
    + rewrite nth_error_app1 in E by auto. destruct (g_own0 b w E) as [?|[(k & l' & -> & E1 & E2)|?]]; auto. right. left. exists k, l'. split; auto.
      split; rewrite nth_error_app1; auto; apply nth_error_Some; congruence.
    + rewrite nth_error_app2 in E by auto. destruct (b - length own)%nat as [|k] eqn:Ek; [injection E as <-|destruct k; discriminate].
      right. left. exists (length bufs), l. split; auto. split; rewrite nth_error_app2 by lia.
      * rewrite Nat.sub_diag. cbn. f_equal. lia.
      * rewrite Lb, Nat.sub_diag. reflexivity.
Qed.
Lemma nth_lt {A} (l : list A) n x : nth_error l n = Some x -> (n < length l)%nat.
Proof. intros E. apply nth_error_Some. congruence. Qed.
Lemma good_bufset own m bufs objs h ss b p l l' : good [] own m bufs objs h ss -> nth_error bufs b = Some p -> nth_error h b = Some (Some l) ->
  good [] own (list_set m p (Some (map Some l'))) bufs objs (list_set h b (Some l')) ss.
Proof.
  intros G Ep El. pose proof (g_buf _ _ _ _ _ _ _ G b p Ep) as Hb. rewrite El in Hb. destruct Hb as (Em & Eo).
  pose proof (nth_lt _ _ _ Em) as Hpm. pose proof (nth_lt _ _ _ El) as Hbh. destruct G. split; auto.
  - now rewrite list_set_length.
  - intros c. destruct (Nat.eq_dec p c) as [<-|Hn]; [|rewrite list_set_nth_error_neq; auto]. rewrite list_set_nth_error_eq by auto. rewrite Eo. split; discriminate.
  - now rewrite list_set_length.
  - intros k q Eq. specialize (g_buf0 k q Eq). destruct (Nat.eq_dec b k) as [<-|Hn].
    + assert (q = p) by congruence. subst q. rewrite !list_set_nth_error_eq by auto. auto.
    + rewrite (list_set_nth_error_neq h) by auto. assert (Hq : p <> q).
      { intros ->. destruct (nth_error h k) as [[l0|]|]; [destruct g_buf0; congruence|congruence|auto]. }
      destruct (nth_error h k) as [[l0|]|]; auto; rewrite list_set_nth_error_neq; auto.
  - intros i Hi. specialize (g_obj0 i Hi). destruct (nth_error objs i) as [[o|]|]; auto. destruct (nth_error ss i) as [[t|]|]; auto. destruct g_obj0 as (R & C).
    split; auto. apply (rep_frame m _ bufs i); auto. intros c w Hin. rewrite list_set_nth_error_neq; auto. intros ->. apply C in Hin as Hc.
    apply claims_tag in Hin. rewrite Eo in Hc. injection Hc as <-. destruct Hin as [Q|[Q|Q]]; discriminate.
  - intros c w E. destruct (g_own0 c w E) as [?|[(k & l0 & -> & E1 & E2)|?]]; auto. right. left. destruct (Nat.eq_dec b k) as [<-|Hn].
    + exists b, l'. rewrite list_set_nth_error_eq; auto.
    + exists k, l0. rewrite list_set_nth_error_neq; auto.
Qed.
Lemma good_bufgone own m bufs objs h ss b p l : good [] own m bufs objs h ss -> nth_error bufs b = Some p -> nth_error h b = Some (Some l) ->
  good [] (list_set own p None) (list_set m p None) bufs objs (list_set h b None) ss /\ leaks (list_set own p None) = leaks own /\ nth_error m p = Some (Some (map Some l)).
Proof.
  intros G Ep El. pose proof (g_buf _ _ _ _ _ _ _ G b p Ep) as Hb. rewrite El in Hb. destruct Hb as (Em & Eo).
  pose proof (nth_lt _ _ _ Em) as Hpm. pose proof (nth_lt _ _ _ El) as Hbh. pose proof (g_len _ _ _ _ _ _ _ G) as L.
  split; [|split; auto].
  2: { rewrite (leaks_set _ _ _ None Eo). cbn [is_leak]. lia. }
  destruct G. split; auto.
  - now rewrite !list_set_length.
  - intros c. destruct (Nat.eq_dec p c) as [<-|Hn]; [|rewrite !list_set_nth_error_neq; auto]. rewrite !list_set_nth_error_eq by lia. tauto.
  - now rewrite list_set_length.
  - intros k q Eq. specialize (g_buf0 k q Eq). destruct (Nat.eq_dec b k) as [<-|Hn].
    + assert (q = p) by congruence. subst q. rewrite !list_set_nth_error_eq by auto. auto.
    + rewrite (list_set_nth_error_neq h) by auto. assert (Hq : p <> q).
      { intros ->. destruct (nth_error h k) as [[l0|]|]; [destruct g_buf0; congruence|congruence|auto]. }
      destruct (nth_error h k) as [[l0|]|]; auto; rewrite !list_set_nth_error_neq; auto.
  - intros i Hi. specialize (g_obj0 i Hi). destruct (nth_error objs i) as [[o|]|]; auto. destruct (nth_error ss i) as [[t|]|]; auto. destruct g_obj0 as (R & C).
    assert (Hne : forall c w, In (c, w) (claims i o) -> p <> c).
    { intros c w Hin ->. apply C in Hin as Hc. apply claims_tag in Hin. rewrite Eo in Hc. injection Hc as <-. destruct Hin as [Q|[Q|Q]]; discriminate. }
    split.
    + apply (rep_frame m _ bufs i); auto. intros c w Hin. rewrite list_set_nth_error_neq; eauto.
    + intros c w Hin. rewrite list_set_nth_error_neq; eauto.
  - intros c w E. destruct (Nat.eq_dec p c) as [<-|Hn]; [rewrite list_set_nth_error_eq in E by lia; discriminate|]. rewrite list_set_nth_error_neq in E by auto.
    destruct (g_own0 c w E) as [?|[(k & l0 & -> & E1 & E2)|?]]; auto. right. left. exists k, l0. split; auto. split; auto. rewrite list_set_nth_error_neq; auto.
    intros <-. congruence.
Qed.
End SeriesProofs.
