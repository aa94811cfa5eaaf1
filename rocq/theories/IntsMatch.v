(** * The checked distances, searches and group files against the unbounded ones: no overflow for moderate
    lengths. *)
From Coq Require Import ZArith Bool Lia List Ascii String.
From Verif Require Import Outcome Num Deque Lemire Distance TimeSeries Text Dataset Groups Api ApiProofs GroupProofs Ints IntsProofs.
Import ListNotations.
Open Scope Z_scope.

(** ** Equal bodies on the states that are reached, equal loops. *)
Lemma same_loop {S} (I : Z -> S -> Prop) (b32 b : Z -> S -> outcome S) : forall n i s, I i s ->
  (forall j t, i <= j < i + Z.of_nat n -> I j t -> b32 j t = b j t /\ forall t', b j t = Ok t' -> I (j + 1) t') ->
  loop n i b32 s = loop n i b s.
Proof.
  induction n as [|n IH]; intros i s HI H; cbn [loop]; [reflexivity|]. destruct (H i s ltac:(lia) HI) as (-> & K).
  destruct (b i s) as [t'| | |] eqn:E; cbn [bind]; auto. apply IH; [now apply K|]. intros j t Hj. apply H. lia.
Qed.
Lemma same_for {S} (I : Z -> S -> Prop) (b32 b : Z -> S -> outcome S) lo hi s : I lo s ->
  (forall j t, lo <= j < hi -> I j t -> b32 j t = b j t /\ forall t', b j t = Ok t' -> I (j + 1) t') ->
  for_ lo hi b32 s = for_ lo hi b s.
Proof. intros HI H. apply (same_loop I); auto. intros j t Hj. apply H. lia. Qed.
Lemma same_loopb {S} (I : Z -> S -> Prop) (b32 b : Z -> S -> outcome (ctl S)) : forall n i s, I i s ->
  (forall j t, i <= j < i + Z.of_nat n -> I j t -> b32 j t = b j t /\ forall t', b j t = Ok (Next t') -> I (j + 1) t') ->
  loopb n i b32 s = loopb n i b s.
Proof.
  induction n as [|n IH]; intros i s HI H; cbn [loopb]; [reflexivity|]. destruct (H i s ltac:(lia) HI) as (-> & K).
  destruct (b i s) as [[t'|t']| | |] eqn:E; cbn [bind]; auto. apply IH; [now apply K|]. intros j t Hj. apply H. lia.
Qed.
Lemma same_forb {S} (I : Z -> S -> Prop) (b32 b : Z -> S -> outcome (ctl S)) lo hi s : I lo s ->
  (forall j t, lo <= j < hi -> I j t -> b32 j t = b j t /\ forall t', b j t = Ok (Next t') -> I (j + 1) t') ->
  forb lo hi b32 s = forb lo hi b s.
Proof. intros HI H. apply (same_loopb I); auto. intros j t Hj. apply H. lia. Qed.
Lemma same_while {S} (I : S -> Prop) (c : S -> outcome bool) (b32 b : S -> outcome S) : forall n s, I s ->
  (forall t, I t -> c t = Ok true -> b32 t = b t /\ forall t', b t = Ok t' -> I t') ->
  while_ n c b32 s = while_ n c b s.
Proof.
  induction n as [|n IH]; intros s HI H; cbn [while_]; [reflexivity|]. destruct (c s) as [[|]| | |] eqn:E; cbn [bind]; auto.
  destruct (H s HI E) as (-> & K). destruct (b s) as [t'| | |] eqn:E'; cbn [bind]; auto.
Qed.
Lemma while_after {S} (I : S -> Prop) (c : S -> outcome bool) (b : S -> outcome S) : forall n s r, while_ n c b s = Ok r -> I s ->
  (forall t t', I t -> c t = Ok true -> b t = Ok t' -> I t') -> I r.
Proof.
  induction n as [|n IH]; intros s r E HI H; cbn [while_] in E; apply bind_Ok_inv in E as ([|] & Ec & E); try discriminate; try (injection E as <-; exact HI).
  apply bind_Ok_inv in E as (t' & E1 & E2). apply (IH t' r); auto. apply (H s t'); auto.
Qed.
Lemma same_each {A S} (I : S -> Prop) (b32 b : A -> S -> outcome S) l : forall s, I s ->
  (forall a t, In a l -> I t -> b32 a t = b a t /\ forall t', b a t = Ok t' -> I t') ->
  for_each l b32 s = for_each l b s.
Proof.
  induction l as [|a l IH]; intros s HI H; cbn [for_each]; [reflexivity|]. destruct (H a s (or_introl eq_refl) HI) as (-> & K).
  destruct (b a s) as [t'| | |] eqn:E; cbn [bind]; auto. apply IH; [now apply K|]. intros x t Hx. apply H. now right.
Qed.
Lemma each_after {A S} (I : S -> Prop) (b : A -> S -> outcome S) l : forall s r, for_each l b s = Ok r -> I s ->
  (forall a t t', In a l -> I t -> b a t = Ok t' -> I t') -> I r.
Proof.
  induction l as [|a l IH]; intros s r E HI H; cbn [for_each] in E; [now injection E as <-|]. apply bind_Ok_inv in E as (t' & E1 & E2).
  apply (IH t' r); auto. - apply (H a s t'); auto. now left. - intros x t u Hx. apply H. now right.
Qed.
Lemma bind_same {A B} (o : outcome A) (k32 k : A -> outcome B) : (forall a, o = Ok a -> k32 a = k a) -> bind o k32 = bind o k.
Proof. intros H. destruct o; cbn [bind]; auto. Qed.

(** A length up to 2^29, and a number between -2^29 and 2^29. *)
Definition short (k : Z) : Prop := 0 <= k <= 536870912.
Definition near (k : Z) : Prop := - 536870912 <= k <= 536870912.
Ltac ck := rewrite chk_in by (unfold short, near, int_min, int_max in *; lia); cbn [bind].

(** ** The deques of the envelope hold indices. *)
Definition cells (d : deque) : Prop := Forall (fun o => match o with Some v => short v | None => True end) (dq_data d).
Lemma zget_Forall {A} (P : A -> Prop) l i x : Forall P l -> zget l i = Ok x -> P x.
Proof.
  intros H E. unfold zget in E. destruct (i <? 0); [discriminate|]. destruct (nth_error l (Z.to_nat i)) eqn:En; [|discriminate]. injection E as <-.
  rewrite Forall_forall in H. eapply H, nth_error_In, En.
Qed.
Lemma zset_Forall {A} (P : A -> Prop) l i x l' : Forall P l -> P x -> zset l i x = Ok l' -> Forall P l'.
Proof. intros H Hx E. unfold zset in E. destruct (_ || _); [discriminate|]. injection E as <-. now apply Forall_list_set. Qed.
Lemma cells_new k : cells (dq_new k).
Proof. unfold cells, dq_new, zrepeat. cbn. apply Forall_forall. intros x H. apply repeat_spec in H. now subst x. Qed.
Lemma cells_push d v d' : cells d -> short v -> dq_push_back d v = Ok d' -> cells d'.
Proof. unfold dq_push_back. intros H Hv E. apply bind_Ok_inv in E as (data & E1 & E2). injection E2 as <-. eapply zset_Forall; eauto. exact Hv. Qed.
Lemma cells_pop d d' : cells d -> dq_pop_back d = Ok d' -> cells d'.
Proof. unfold dq_pop_back. intros H E. destruct (_ =? 0); [discriminate|]. injection E as <-. exact H. Qed.
Lemma cells_front d v : cells d -> dq_front d = Ok v -> short v.
Proof.
  unfold dq_front, dq_read. intros H E. apply bind_Ok_inv in E as (x & E1 & E2). pose proof (zget_Forall _ _ _ _ H E1) as X. destruct x; [|discriminate]. now injection E2 as <-.
Qed.

Section IntsMatch.
Context (N : NumOps) (IO : NumIO N).
Local Notation T := (num N).

Lemma cells_while t ti b d d' : cells d -> pop_while N t ti b d = Ok d' -> cells d'.
Proof. unfold pop_while. intros H E. eapply (while_after cells); eauto. intros u u' Hu _ Eu. eapply cells_pop; eauto. Qed.
Definition lem_ok (s : lem_state N) : Prop := cells (lem_du N s) /\ cells (lem_dl N s).
Lemma emit_ok t k s s' : lem_ok s -> emit N t k s = Ok s' -> lem_ok s'.
Proof.
  unfold emit. intros H E. repeat (apply bind_Ok_inv in E as (? & ? & E)). injection E as <-. exact H.
Qed.

Lemma lem1_same t r i s : near r -> 1 <= i -> short i -> lem_ok s ->
  lem_body1_32 N t r i s = lem_body1 N t r i s /\ forall s', lem_body1 N t r i s = Ok s' -> lem_ok s'.
Proof.
  intros Hr Hi1 Hi HS. unfold lem_body1_32, lem_body1, place32.
  assert (E0 : (if r <? i then k <- (d <- chk (i - r);; chk (d - 1));; emit N t k s else Ok s) = (if r <? i then emit N t (i - r - 1) s else Ok s)).
  { destruct (r <? i); [|reflexivity]. ck. ck. reflexivity. }
  rewrite E0. clear E0. destruct (if r <? i then emit N t (i - r - 1) s else Ok s) as [s1| | |] eqn:E1; cbn [bind]; try (split; [reflexivity|discriminate]).
  assert (S1 : lem_ok s1). { destruct (r <? i); [eapply emit_ok; eauto|now injection E1 as <-]. } clear HS E1 s.
  destruct (zget t i) as [ti| | |]; cbn [bind]; try (split; [reflexivity|discriminate]).
  destruct (zget t (i - 1)) as [tp| | |]; cbn [bind]; try (split; [reflexivity|discriminate]).
  match goal with |- bind ?o _ = _ /\ _ => destruct o as [s2| | |] eqn:E2 end; cbn [bind]; try (split; [reflexivity|discriminate]).
  assert (S2 : lem_ok s2).
  { destruct S1 as (U & L). destruct (nltb N tp ti); apply bind_Ok_inv in E2 as (d1 & Ea & E2); apply bind_Ok_inv in E2 as (d2 & Eb & E2); injection E2 as <-; split; cbn; auto;
      (eapply cells_while; [|exact Eb]; eapply cells_pop; [|exact Ea]; auto). }
  clear S1 E2 s1. destruct S2 as (U & L).
  destruct (dq_push_back (lem_du N s2) i) as [du| | |] eqn:Eu; cbn [bind]; try (split; [reflexivity|discriminate]).
  destruct (dq_push_back (lem_dl N s2) i) as [dl| | |] eqn:El; cbn [bind]; try (split; [reflexivity|discriminate]).
  pose proof (cells_push _ _ _ U Hi Eu) as U'. pose proof (cells_push _ _ _ L Hi El) as L'.
  destruct (dq_front du) as [fu| | |] eqn:Fu; cbn [bind]; try (split; [reflexivity|discriminate]).
  pose proof (cells_front _ _ U' Fu). ck. ck. ck. destruct (i =? 2 * r + 1 + fu); [split; [reflexivity|]; intros s' [= <-]; split; auto|].
  destruct (dq_front dl) as [fl| | |] eqn:Fl; cbn [bind]; try (split; [reflexivity|discriminate]).
  pose proof (cells_front _ _ L' Fl). ck. split; [reflexivity|]. destruct (i =? 2 * r + 1 + fl); intros s' [= <-]; split; auto.
Qed.
Lemma lem2_same t r i s : near r -> 0 <= i <= 1073741824 -> lem_ok s ->
  lem_body2_32 N t r i s = lem_body2 N t r i s /\ forall s', lem_body2 N t r i s = Ok s' -> lem_ok s'.
Proof.
  intros Hr Hi HS. unfold lem_body2_32, lem_body2, place32. ck. ck.
  destruct (emit N t (i - r - 1) s) as [s1| | |] eqn:E1; cbn [bind]; try (split; [reflexivity|discriminate]).
  pose proof (emit_ok _ _ _ _ HS E1) as S1. clear HS E1 s. destruct S1 as (U & L).
  destruct (dq_front (lem_du N s1)) as [fu| | |] eqn:Fu; cbn [bind]; try (split; [reflexivity|discriminate]).
  pose proof (cells_front _ _ U Fu). ck. ck. ck.
  destruct (dq_front (lem_dl N s1)) as [fl| | |] eqn:Fl; cbn [bind]; try (split; [reflexivity|discriminate]).
  pose proof (cells_front _ _ L Fl). ck. split; [reflexivity|]. intros s' [= <-]. split; cbn [lem_du lem_dl]; [destruct (_ <=? _)|destruct (_ <=? _)]; auto.
Qed.
Theorem lemire_same t r : near r -> short (zlen t) -> lower_upper_lemire32 N t r = lower_upper_lemire N t r.
Proof.
  intros Hr Ht. unfold lower_upper_lemire32, lower_upper_lemire. ck. ck.
  destruct (dq_push_back (dq_new (2 * r + 2)) 0) as [d0| | |] eqn:E0; cbn [bind]; auto.
  assert (C : cells d0) by (eapply cells_push; [apply cells_new| |exact E0]; unfold short; lia).
  rewrite (same_for (fun _ => lem_ok) (lem_body1_32 N t r) (lem_body1 N t r)).
  - destruct (for_ 1 (zlen t) (lem_body1 N t r) _) as [s1| | |] eqn:E1; cbn [bind]; auto.
    assert (S1 : lem_ok s1).
    { apply (for_after (fun _ => lem_ok) _ _ _ _ _ E1); [split; exact C|]. intros j u u' Hj Hu Eu. eapply (lem1_same t r j u); eauto; unfold short in *; lia. }
    ck. ck. rewrite (same_for (fun _ => lem_ok) (lem_body2_32 N t r) (lem_body2 N t r)); auto. intros j u Hj Hu. apply lem2_same; auto. unfold short, near in *; lia.
  - split; exact C.
  - intros j u Hj Hu. apply lem1_same; auto; unfold short in *; lia.
Qed.

(** ** Distances *)

(** The bands of the ratio are not below -2^29 for short lengths. *)
Definition mild (ratio : T) : Prop := forall k r, short k -> calculateWarpingBandSize N ratio k = Ok r -> - 536870912 <= r.
Lemma band_same ratio k : short k -> band32 N ratio k = calculateWarpingBandSize N ratio k.
Proof. intros H. unfold band32, calculateWarpingBandSize. destruct (floor_int N _); cbn [bind]; auto. ck. reflexivity. Qed.
Lemma band_near ratio k r : mild ratio -> short k -> calculateWarpingBandSize N ratio k = Ok r -> near r.
Proof.
  intros M H E. pose proof (M k r H E). unfold calculateWarpingBandSize in E. apply bind_Ok_inv in E as (x & _ & E). injection E as <-. unfold near, short in *. lia.
Qed.
Lemma norm_same total k : short k -> euc_norm_dtw32 N total k = Ok (euc_norm_dtw N total k).
Proof. intros H. unfold euc_norm_dtw32, euc_norm_dtw. ck. reflexivity. Qed.
Theorem warped_same ratio a b d : mild ratio -> short (zlen a) -> short (zlen b) -> warpedDistance32 N ratio a b d = warpedDistance N ratio a b d.
Proof.
  intros M Ha Hb. unfold warpedDistance32, warpedDistance. assert (K : short (Z.max (zlen a) (zlen b))) by (unfold short in *; lia).
  rewrite band_same by auto. apply bind_same. intros r Er. pose proof (band_near _ _ _ M K Er) as R. destruct (_ && _).
  - apply bind_same. intros a0 _. apply bind_same. intros b0 _. apply norm_same, K.
  - do 4 (apply bind_same; intros ? _). ck. ck. do 2 (apply bind_same; intros ? _).
    rewrite (same_forb (fun _ _ => True) (dtw_row32 N a b r (euc_inorm_dtw N d (Z.max (zlen a) (zlen b)))) (dtw_row N a b r (euc_inorm_dtw N d (Z.max (zlen a) (zlen b))))); auto.
    + apply bind_same. intros (cost & dr) _. apply bind_same. intros res _. apply norm_same, K.
    + intros i (cost & dr) Hi _. split; auto. unfold dtw_row32, dtw_row. ck. ck.
      rewrite (same_for (fun _ _ => True) (dtw_cell32 N a b r i) (dtw_cell N a b r i)); auto. intros j (c & best) Hj _. split; auto.
      unfold dtw_cell32, dtw_cell. destruct (j =? 0); auto. do 2 (apply bind_same; intros ? _). ck. destruct (j - r <=? i - 1); cbn [andb]; [ck|]; reflexivity.
Qed.
Lemma envelope_same h t band : near band -> ts_len t <= 536870912 -> ts_envelope32 N h t band = ts_envelope N h t band.
Proof.
  intros Hb Ht. unfold ts_envelope32, ts_envelope, generateKeoghLU.
  assert (X : (v <- ts_read N h t ;; '(l, u) <- lower_upper_lemire32 N v (Z.min band (zlen v - 1)) ;; Ok (mkTS (ts_src t) (ts_index t) (ts_start t) (ts_end t) (ts_len t) (Some (mkCache band l u)), (l, u)))
    = (v <- ts_read N h t ;; '(l, u) <- lower_upper_lemire N v (Z.min band (zlen v - 1)) ;; Ok (mkTS (ts_src t) (ts_index t) (ts_start t) (ts_end t) (ts_len t) (Some (mkCache band l u)), (l, u)))).
  { apply bind_same. intros v E. pose proof (read_len N _ _ _ E) as L. rewrite lemire_same; auto; unfold near, short in *; lia. }
  destruct (ts_cache t) as [c|]; [|exact X]. destruct (_ =? _); auto.
Qed.
Lemma envelope_len h t band t' e : ts_envelope N h t band = Ok (t', e) -> ts_len t' = ts_len t.
Proof.
  unfold ts_envelope. intros E. assert (X : forall e', (v <- ts_read N h t ;; '(l, u) <- generateKeoghLU N v band ;; Ok (mkTS (ts_src t) (ts_index t) (ts_start t) (ts_end t) (ts_len t) (Some (mkCache band l u)), (l, u))) = Ok (t', e') -> ts_len t' = ts_len t).
  { intros e' H. apply bind_Ok_inv in H as (v & _ & H). apply bind_Ok_inv in H as ((l & u) & _ & H). now injection H as <- _. }
  destruct (ts_cache t) as [c|]; [|eapply X; eauto]. destruct (_ =? _); [now injection E as <- _|eapply X; eauto].
Qed.
Lemma keogh_same h ratio a b d : mild ratio -> short (ts_len a) -> short (ts_len b) -> keogh_ts32 N h ratio a b d = keogh_ts N h ratio a b d.
Proof.
  intros M Ha Hb. unfold keogh_ts32, keogh_ts. assert (K : short (Z.max (ts_len a) (ts_len b))) by (unfold short in *; lia).
  rewrite band_same by auto. apply bind_same. intros r Er. pose proof (band_near _ _ _ M K Er) as R. rewrite envelope_same by (auto; unfold short in *; lia).
  apply bind_same. intros (a' & (l & u)) Ee. pose proof (envelope_len _ _ _ _ _ Ee). apply bind_same. intros bv Eb. pose proof (read_len N _ _ _ Eb) as L.
  unfold keogh_sum32, keogh_sum. f_equal. apply bind_same. intros lb _. apply norm_same. unfold short in *. lia.
Qed.
Lemma keogh_len h ratio a b d a' x : keogh_ts N h ratio a b d = Ok (a', x) -> ts_len a' = ts_len a.
Proof.
  unfold keogh_ts. intros E. apply bind_Ok_inv in E as (r & _ & E). apply bind_Ok_inv in E as ((t & (l & u)) & E1 & E). apply envelope_len in E1.
  apply bind_Ok_inv in E as (bv & _ & E). apply bind_Ok_inv in E as (y & _ & E). injection E as <- _. exact E1.
Qed.
Lemma cross_same h ratio a b d : mild ratio -> short (ts_len a) -> short (ts_len b) -> crossKeogh_ts32 N h ratio a b d = crossKeogh_ts N h ratio a b d.
Proof.
  intros M Ha Hb. unfold crossKeogh_ts32, crossKeogh_ts. rewrite keogh_same by auto. apply bind_same. intros (a' & lb) E. pose proof (keogh_len _ _ _ _ _ _ _ E) as L.
  destruct (nltb N d lb); auto. rewrite keogh_same; auto. now rewrite L.
Qed.
Lemma cross_len h ratio a b d a' b' x : crossKeogh_ts N h ratio a b d = Ok (a', b', x) -> ts_len a' = ts_len a /\ ts_len b' = ts_len b.
Proof.
  unfold crossKeogh_ts. intros E. apply bind_Ok_inv in E as ((a1 & lb) & E1 & E). apply keogh_len in E1. destruct (nltb N d lb); [injection E as <- <- _; auto|].
  apply bind_Ok_inv in E as ((b1 & lb2) & E2 & E). apply keogh_len in E2. injection E as <- <- _. auto.
Qed.
Theorem cascade_same h ratio a b d : mild ratio -> short (ts_len a) -> short (ts_len b) -> cascade_ts32 N h ratio a b d = cascade_ts N h ratio a b d.
Proof.
  intros M Ha Hb. unfold cascade_ts32, cascade_ts. rewrite cross_same by auto. apply bind_same. intros ((a' & b') & lb) E. destruct (cross_len _ _ _ _ _ _ _ _ E) as (La & Lb).
  destruct (nltb N d lb); auto. apply bind_same. intros av Ea. apply bind_same. intros bv Eb. apply (read_len N) in Ea. apply (read_len N) in Eb.
  rewrite warped_same; auto; unfold short in *; lia.
Qed.
Lemma cascade_len h ratio a b d a' b' x : cascade_ts N h ratio a b d = Ok (a', b', x) -> ts_len a' = ts_len a /\ ts_len b' = ts_len b.
Proof.
  unfold cascade_ts. intros E. apply bind_Ok_inv in E as (((a1 & b1) & lb) & E1 & E). apply cross_len in E1. destruct (nltb N d lb); [injection E as <- <- _; auto|].
  apply bind_Ok_inv in E as (av & _ & E). apply bind_Ok_inv in E as (bv & _ & E). apply bind_Ok_inv in E as (y & _ & E). injection E as <- <- _. auto.
Qed.

(** ** Matching *)
Lemma series_same (s : tset) i a e : sized s -> 0 <= set_len s -> getTimeSeries32 N s i a e = getTimeSeries N s i a e.
Proof.
  intros Z H0. pose proof Z as (Z1 & Z2 & _). unfold getTimeSeries32, getTimeSeries.
  destruct (Z.ltb_spec i 0); [reflexivity|]. destruct (Z.leb_spec (set_count s) i); [reflexivity|]. cbn [orb].
  destruct (offset_in s i Z H0 ltac:(lia)) as (O1 & O2).
  destruct (Z.ltb_spec a 0), (Z.ltb_spec e 0); cbn [andb orb bind]; auto.
  - rewrite chk_in by auto. cbn [bind ts_end ts_start]. rewrite chk_in by (unfold int_min in *; lia). reflexivity.
  - destruct (Z.leb_spec e a); [reflexivity|lia].
  - destruct (Z.leb_spec e a); [reflexivity|]. destruct (Z.ltb_spec (set_len s) e); [reflexivity|]. cbn [orb bind].
    rewrite chk_in by auto. cbn [bind ts_end ts_start]. rewrite chk_in by (unfold int_min in *; lia). reflexivity.
Qed.
Lemma series_len s i a e t : getTimeSeries N s i a e = Ok t -> 0 <= set_len s -> 0 <= ts_len t <= set_len s.
Proof.
  unfold getTimeSeries. intros E H0. destruct (_ || _); [discriminate|].
  destruct (Z.ltb_spec a 0), (Z.ltb_spec e 0); cbn [andb orb] in E; try discriminate; try (injection E as <-; cbn; lia).
  - destruct (Z.leb_spec e a); [discriminate|lia].
  - destruct (Z.leb_spec e a); [discriminate|]. destruct (Z.ltb_spec (set_len s) e); [discriminate|]. injection E as <-. cbn. lia.
Qed.

Section OneSet.
Context (s : tset).
Hypothesis Hz : sized s.
Hypothesis Hs : short (set_len s).
Local Notation valid := (valid s).

Lemma member_same L g c : 1 <= L <= set_len s -> g_length N g = L -> c = (0, 0) \/ valid L c ->
  member32 N s g c = getTimeSeries N s (fst c) (snd c) (snd c + g_length N g).
Proof.
  intros HL E Hc. unfold member32. assert (0 <= snd c /\ snd c + g_length N g <= set_len s) by (destruct Hc as [->|(? & ? & ?)]; cbn in *; lia).
  ck. apply series_same; auto. apply Hs.
Qed.
Lemma place_in L c : 1 <= L <= set_len s -> valid L c ->
  int_min <= fst c * (set_len s - L + 1) <= int_max /\ int_min <= fst c * (set_len s - L + 1) + snd c <= int_max.
Proof.
  intros HL (A & B & C). destruct Hz as (_ & _ & P). specialize (P ltac:(lia)). unfold int_min, int_max in *.
  assert (fst c * (set_len s - L + 1) + snd c <= set_count s * set_len s) by nia. nia.
Qed.
Lemma prev_same m L c : 1 <= L <= set_len s -> valid L c -> prev_of32 m (set_len s - L + 1) c = prev_of m (set_len s - L + 1) c.
Proof. intros HL V. destruct (place_in L c HL V). unfold prev_of32, prev_of. rewrite chk_in by auto. cbn [bind]. rewrite chk_in by auto. reflexivity. Qed.
Lemma chain_prev m L gi : forall ms prev c p, chain s L m gi prev ms -> In c ms -> prev_of m (set_len s - L + 1) c = Ok p -> p = prev \/ In p ms.
Proof.
  induction ms as [|x ms IH]; intros prev c p HC Hc E; [destruct Hc|]. destruct HC as (H1 & H2). destruct Hc as [->|Hc].
  - unfold prev_of in E. change (fst c * (set_len s - L + 1) + snd c) with (cpos s L c) in E. rewrite H1 in E. cbn [bind mem_prev] in E. injection E as <-. now left.
  - destruct (IH x c p H2 Hc E) as [->|H]; right; [now left|now right].
Qed.
Lemma last_at {A} (ms : list A) d : last ms d = d \/ In (last ms d) ms.
Proof. destruct ms as [|x ms] using rev_ind; [now left|]. rewrite last_last. right. apply in_or_app. right. now left. Qed.
(** The place of a walk along the members [ms]. *)
Definition at_ms (ms : list coord) (c : coord) : Prop := c = (-1, -1) \/ In c ms.
Lemma at_in ms c : at_ms ms c -> negb (fst c =? -1) = true -> In c ms.
Proof. intros [->|H] E; [discriminate|exact H]. Qed.

Theorem group_match_same h ratio L ls gm gi g ms q : mild ratio -> 1 <= L <= set_len s -> short (ts_len q) ->
  links N s L ls gm -> zget gm gi = Ok ms -> zget (ls_groups N ls) gi = Ok g ->
  group_getBestMatch32 N h ratio s (ls_map N ls) g q = group_getBestMatch N h ratio s (ls_map N ls) g q.
Proof.
  intros M HL Hq Hk Hm Hg. pose proof Hk as (_ & _ & _ & _ & HG & _). destruct (HG gi g ms Hg Hm) as (_ & G2 & G3 & _ & G5 & G6).
  pose proof (links_members_valid N s L ls gm gi ms Hk Hm) as V.
  unfold group_getBestMatch32, group_getBestMatch.
  set (I := fun st : match_state N => let '(cur, _, bm, q) := st in at_ms ms cur /\ (bm = (0, 0) \/ In bm ms) /\ short (ts_len q)).
  assert (I0 : I (g_last N g, ninf N, (0, 0), q)).
  { split; [|split; auto]. rewrite G5. destruct (last_at ms (-1, -1)) as [E|E]; [left; exact E|right; exact E]. }
  assert (K : forall t, I t -> (let '(cur, _, _, _) := t in Ok (negb (fst cur =? -1))) = Ok true ->
     group_match_body32 N h ratio s (ls_map N ls) g t = group_match_body N h ratio s (ls_map N ls) g t /\ forall t', group_match_body N h ratio s (ls_map N ls) g t = Ok t' -> I t').
  { intros (((cur & bd) & bm) & q1) (I1 & I2 & I3) [= Ec]. pose proof (at_in _ _ I1 Ec) as Hc. pose proof (V cur Hc) as Vc.
    unfold group_match_body32, group_match_body. rewrite (member_same L g cur HL G2 (or_intror Vc)).
    destruct (getTimeSeries N s (fst cur) (snd cur) (snd cur + g_length N g)) as [t| | |] eqn:Et; cbn [bind]; try (split; [reflexivity|discriminate]).
    pose proof (series_len _ _ _ _ _ Et ltac:(lia)) as Lt. rewrite cascade_same; auto; [|unfold short in *; lia].
    destruct (cascade_ts N h ratio q1 t bd) as [((q2 & t2) & d)| | |] eqn:Ed; cbn [bind]; try (split; [reflexivity|discriminate]).
    destruct (cascade_len _ _ _ _ _ _ _ _ Ed) as (L1 & _). rewrite G3, (prev_same _ L cur HL Vc).
    assert (X : forall bd' bm', (bm' = (0, 0) \/ In bm' ms) -> forall t', (c <- prev_of (ls_map N ls) (set_len s - L + 1) cur;; Ok (c, bd', bm', q2)) = Ok t' -> I t').
    { intros bd' bm' Hb t' E. apply bind_Ok_inv in E as (p & Ep & E). injection E as <-. split; [|split; [exact Hb|now rewrite L1]]. destruct (chain_prev _ L gi ms _ cur p G6 Hc Ep) as [->|H]; [now left|now right]. }
    destruct (nltb N d bd); (split; [reflexivity|]); apply X; auto. }
  rewrite (same_while I _ (group_match_body32 N h ratio s (ls_map N ls) g) (group_match_body N h ratio s (ls_map N ls) g)); [|exact I0|exact K].
  apply bind_same. intros (((cur & bd) & bm) & q1) E.
  assert (I1 : I (cur, bd, bm, q1)) by (apply (while_after I _ _ _ _ _ E I0); intros t t' It Ct Bt; now apply (K t It Ct)).
  destruct I1 as (_ & I1 & _). rewrite (member_same L g bm HL G2); [reflexivity|]. destruct I1 as [I1|I1]; [left; exact I1|right; apply V; exact I1].
Qed.

(** Groups of length [L] with representatives that are not too long. *)
Definition fine_ls (L : Z) (ls : lspace N) : Prop :=
  exists gm, links N s L ls gm /\ Forall (fun g => short (ts_len (g_centroid N g))) (ls_groups N ls).
Lemma fine_set L ls i g c groups : fine_ls L ls -> zget (ls_groups N ls) i = Ok g -> short (ts_len c) ->
  zset (ls_groups N ls) i (set_centroid_ts N g c) = Ok groups -> fine_ls L (mkLS N (ls_length N ls) (ls_sub N ls) groups (ls_map N ls)).
Proof.
  intros (gm & (H1 & H2 & H3 & H4 & H5 & H6) & F) Hg Sc E. exists gm. split.
  - unfold links. cbn [ls_length ls_sub ls_groups ls_map]. do 3 (split; [assumption|]). split; [now rewrite (zset_len _ _ _ _ E)|]. split; [|auto].
    intros j g' ms Hj Hms. destruct (Z.eq_dec i j) as [<-|Hn].
    + rewrite (zget_zset_eq _ _ _ _ E) in Hj. injection Hj as <-. exact (H5 _ _ _ Hg Hms).
    + rewrite (zget_zset_neq _ _ _ _ _ E) in Hj by auto. eauto.
  - cbn [ls_groups]. eapply zset_Forall; eauto. exact Sc.
Qed.
Definition bg_fine (L : Z) (ls : lspace N) (st : bg_state N) : Prop :=
  let '(groups, q, _, _) := st in fine_ls L (mkLS N (ls_length N ls) (ls_sub N ls) groups (ls_map N ls)) /\ short (ts_len q).
Lemma best_step_same h ratio L ls i st : mild ratio -> bg_fine L ls st ->
  best_group_step32 N h ratio i st = best_group_step N h ratio i st /\ forall st', best_group_step N h ratio i st = Ok st' -> bg_fine L ls st'.
Proof.
  intros M. destruct st as (((groups & q) & d) & o). intros (H1 & H2). unfold best_group_step32, best_group_step.
  destruct (zget groups i) as [g| | |] eqn:Eg; cbn [bind]; try (split; [reflexivity|discriminate]).
  assert (Sg : short (ts_len (g_centroid N g))). { destruct H1 as (gm & _ & F). exact (zget_Forall _ _ _ _ F Eg). }
  rewrite cascade_same by auto. destruct (cascade_ts N h ratio (g_centroid N g) q d) as [((c & q') & d')| | |] eqn:Ed; cbn [bind]; try (split; [reflexivity|discriminate]).
  destruct (cascade_len _ _ _ _ _ _ _ _ Ed) as (L1 & L2). split; [reflexivity|]. intros st' E. apply bind_Ok_inv in E as (groups' & Ez & E).
  assert (X : fine_ls L (mkLS N (ls_length N ls) (ls_sub N ls) groups' (ls_map N ls))) by (apply (fine_set L _ i g c groups' H1 Eg); [now rewrite L1|exact Ez]).
  destruct (nltb N d' d); injection E as <-; (split; [exact X|now rewrite L2]).
Qed.
Theorem best_group_same h ratio L ls q d : mild ratio -> fine_ls L ls -> short (ts_len q) ->
  getBestGroup32 N h ratio ls q d = getBestGroup N h ratio ls q d /\
  forall ls' q' o x, getBestGroup N h ratio ls q d = Ok (ls', q', o, x) -> fine_ls L ls' /\ short (ts_len q').
Proof.
  intros M F Q. unfold getBestGroup32, getBestGroup.
  assert (B : bg_fine L ls (ls_groups N ls, q, d, None)) by (split; auto; destruct ls; exact F).
  rewrite (same_for (fun _ => bg_fine L ls) (best_group_step32 N h ratio) (best_group_step N h ratio)); auto; [|intros j t _ Ht; now apply best_step_same].
  split; [reflexivity|]. intros ls' q' o x E. apply bind_Ok_inv in E as ((((groups & q1) & d1) & o1) & E1 & E). injection E as <- <- _ _.
  exact (for_after (fun _ => bg_fine L ls) _ _ _ _ _ E1 B ltac:(intros j t t' _ Ht Et; now apply (best_step_same h ratio L ls j t M Ht))).
Qed.

Definition to_ok (q total : Z) (st : to_state) : Prop :=
  let '(order, low, high, _, _) := st in
  (forall l, In l order -> 2 <= l) /\ 1 <= low <= q - 1 /\ q + 1 <= high <= Z.max q total + 1.
Lemma snoc_low (order : list Z) x : (forall l, In l order -> 2 <= l) -> 2 <= x -> forall l, In l (order ++ [x]) -> 2 <= l.
Proof. intros H Hx l Hl. apply in_app_iff in Hl as [Hl|[<-|[]]]; auto. Qed.
Lemma traverse_step_same ratio q total st : mild ratio -> 2 <= q -> short q -> short total -> to_ok q total st ->
  traverse_body32 N ratio q total st = traverse_body N ratio q total st /\ forall st', traverse_body N ratio q total st = Ok st' -> to_ok q total st'.
Proof.
  intros M Q2 Q T1. destruct st as ((((order & low) & high) & ls) & hs). intros (O & Lo & Hi). unfold traverse_body32, traverse_body.
  match goal with |- bind ?o32 _ = bind ?o _ /\ _ => assert (A : o32 = o) end.
  { destruct (negb _); [|reflexivity]. rewrite band_same by auto. apply bind_same. intros r Er. pose proof (band_near _ _ _ M Q Er). ck. destruct (q <=? low + r); [ck|]; reflexivity. }
  rewrite A. clear A.
  match goal with |- bind ?o _ = _ /\ _ => destruct o as [((order1 & low1) & ls1)| | |] eqn:E1 end; cbn [bind]; try (split; [reflexivity|discriminate]).
  assert (B1 : (forall l, In l order1 -> 2 <= l) /\ 1 <= low1 <= q - 1).
  { destruct (Z.ltb_spec low 2) as [H2|H2]; [rewrite orb_true_r in E1; cbn [negb] in E1; injection E1 as <- <- <-; auto|].
    destruct (negb _); [|injection E1 as <- <- <-; auto].
    apply bind_Ok_inv in E1 as (r & _ & E1). destruct (q <=? low + r); injection E1 as <- <- <-; auto. split; [now apply snoc_low|lia]. }
  clear E1. match goal with |- bind ?o32 _ = bind ?o _ /\ _ => assert (A : o32 = o) end.
  { destruct (Z.ltb_spec total high); [rewrite orb_true_r; reflexivity|]. destruct (negb _); [|reflexivity]. assert (Sh : short high) by (unfold short in *; lia). rewrite band_same by auto. apply bind_same. intros r Er. pose proof (band_near _ _ _ M Sh Er). ck. destruct (high <=? q + r); [ck|]; reflexivity. }
  rewrite A. clear A. split; [reflexivity|]. intros st' E. apply bind_Ok_inv in E as (((order2 & high2) & hs2) & E2 & E). injection E as <-.
  destruct B1 as (B1 & B2). unfold to_ok. split; [|split; [exact B2|]];
    (destruct (Z.ltb_spec total high) as [H2|H2]; [rewrite orb_true_r in E2; cbn [negb] in E2; injection E2 as <- <- <-; auto|];
    destruct (negb _); [|injection E2 as <- <- <-; auto]; apply bind_Ok_inv in E2 as (r & _ & E2); destruct (high <=? q + r); injection E2 as <- <- <-; auto; try lia).
  apply snoc_low; auto. lia.
Qed.
Theorem traverse_same ratio q total : mild ratio -> 2 <= q -> short q -> short total ->
  generateTraverseOrder32 N ratio q total = generateTraverseOrder N ratio q total /\
  forall order, generateTraverseOrder N ratio q total = Ok order -> forall l, In l order -> 2 <= l.
Proof.
  intros M Q2 Q T1. unfold generateTraverseOrder32, generateTraverseOrder. ck. ck.
  assert (B : to_ok q total ([q], q - 1, q + 1, false, false)) by (split; [intros l [<-|[]]; auto|lia]).
  rewrite (same_while (to_ok q total) _ (traverse_body32 N ratio q total) (traverse_body N ratio q total)); auto; [|intros t Ht _; now apply traverse_step_same].
  split; [reflexivity|]. intros order E. apply bind_Ok_inv in E as (((((o & lo) & hi) & ls) & hs) & E1 & E). injection E as <-.
  pose proof (while_after (to_ok q total) _ _ _ _ _ E1 B ltac:(intros t t' Ht _ Et; now apply (traverse_step_same ratio q total t M Q2 Q T1 Ht))) as (X & _). exact X.
Qed.

Definition fine_spaces (sp : list (option (lspace N))) : Prop :=
  zlen sp = set_len s + 1 /\ forall L ls, 2 <= L <= set_len s -> zget sp L = Ok (Some ls) -> fine_ls L ls.
Definition gm_fine (st : gm_state N) : Prop :=
  let '(sp, q, _, o) := st in fine_spaces sp /\ short (ts_len q) /\ match o with Some (L, _) => 2 <= L | None => True end.
Lemma match_step_same h ratio L st : mild ratio -> 2 <= L -> gm_fine st ->
  global_match_step32 N h ratio L st = global_match_step N h ratio L st /\ forall st', global_match_step N h ratio L st = Ok st' -> gm_fine st'.
Proof.
  intros M H2. destruct st as (((sp & q) & d) & o). intros (F & Q & Ho). unfold global_match_step32, global_match_step.
  destruct (zget sp L) as [[ls|]| | |] eqn:El; cbn [bind]; try (split; [reflexivity|discriminate]).
  pose proof (zget_inv _ _ _ El) as (HL & _). assert (HL' : 2 <= L <= set_len s) by (destruct F; lia).
  pose proof (proj2 F L ls HL' El) as Fl. destruct (best_group_same h ratio L ls q d M Fl Q) as (-> & K).
  destruct (getBestGroup N h ratio ls q d) as [(((ls' & q') & gi) & d')| | |]; cbn [bind]; try (split; [reflexivity|discriminate]).
  destruct (K _ _ _ _ eq_refl) as (Fl' & Q'). split; [reflexivity|]. intros st' E. apply bind_Ok_inv in E as (sp' & Ez & E).
  assert (F' : fine_spaces sp').
  { destruct F as (F1 & F2). split; [now rewrite (zset_len _ _ _ _ Ez)|]. intros L1 ls1 HL1 E1. destruct (Z.eq_dec L L1) as [<-|Hn].
    - rewrite (zget_zset_eq _ _ _ _ Ez) in E1. injection E1 as <-. exact Fl'.
    - rewrite (zget_zset_neq _ _ _ _ _ Ez) in E1 by auto. eauto. }
  destruct (nltb N d' d); injection E as <-; (split; [exact F'|split; [exact Q'|]]); [destruct gi; auto|exact Ho].
Qed.
Theorem global_match_same h ratio gs q : mild ratio -> fine_spaces (gs_spaces N gs) -> short (ts_len q) ->
  global_getBestMatch32 N h ratio s gs q = global_getBestMatch N h ratio s gs q.
Proof.
  intros M F Q. unfold global_getBestMatch32, global_getBestMatch. destruct (Z.leb_spec (ts_len q) 1); [reflexivity|].
  assert (T1 : short (zlen (gs_spaces N gs) - 1)) by (destruct F as (-> & _); unfold short in *; lia).
  destruct (traverse_same ratio (ts_len q) _ M ltac:(lia) Q T1) as (-> & K). apply bind_same. intros order Eo. specialize (K order Eo).
  assert (B : gm_fine (gs_spaces N gs, q, ninf N, None)) by (split; [exact F|split; [exact Q|exact I]]).
  rewrite (same_each gm_fine (global_match_step32 N h ratio) (global_match_step N h ratio)); auto; [|intros a t Ha Ht; apply match_step_same; auto].
  destruct (for_each order (global_match_step N h ratio) _) as [(((sp & q1) & d) & o)| | |] eqn:E; cbn [bind]; auto.
  pose proof (each_after gm_fine _ _ _ _ E B ltac:(intros a t t' Ha Ht Et; exact (proj2 (match_step_same h ratio a t M (K a Ha) Ht) t' Et))) as (F1 & Q1 & Ho).
  destruct o as [(L & gi)|]; [|reflexivity]. destruct (zget sp L) as [[ls|]| | |] eqn:El; cbn [bind]; auto.
  pose proof (zget_inv _ _ _ El) as (HL & _). assert (HL' : 2 <= L <= set_len s) by (destruct F1; lia).
  destruct (proj2 F1 L ls HL' El) as (gm & Hk & _). destruct (zget (ls_groups N ls) gi) as [g| | |] eqn:Eg; cbn [bind]; auto.
  destruct (zget_Ok gm gi) as (ms & Em). { destruct Hk as (_ & _ & _ & E4 & _). apply zget_inv in Eg. lia. }
  rewrite (group_match_same h ratio L ls gm gi g ms q1); auto. lia.
Qed.

(** ** Saving groups *)
Lemma save_group_same h L ls gm gi g ms : 1 <= L <= set_len s -> links N s L ls gm -> zget gm gi = Ok ms -> zget (ls_groups N ls) gi = Ok g ->
  saveGroup32 N IO h (ls_map N ls) g = saveGroup N IO h (ls_map N ls) g.
Proof.
  intros HL Hk Hm Hg. pose proof Hk as (_ & _ & _ & _ & HG & _). destruct (HG gi g ms Hg Hm) as (_ & G2 & G3 & _ & G5 & G6).
  pose proof (links_members_valid N s L ls gm gi ms Hk Hm) as V. unfold saveGroup32, saveGroup. apply bind_same. intros c _.
  f_equal. apply (same_while (fun st : coord * text => at_ms ms (fst st))).
  - cbn [fst]. rewrite G5. destruct (last_at ms (-1, -1)) as [E|E]; [left; exact E|right; exact E].
  - intros (cur & out) I1 [= Ec]. cbn [fst] in *. pose proof (at_in _ _ I1 Ec) as Hc. rewrite G3, (prev_same _ L cur HL (V cur Hc)). split; [reflexivity|].
    intros t' E. apply bind_Ok_inv in E as (p & Ep & E). injection E as <-. cbn [fst]. destruct (chain_prev _ L gi ms _ cur p G6 Hc Ep) as [->|H]; [now left|now right].
Qed.
Theorem global_save_same h gs b : zlen (gs_spaces N gs) = set_len s + 1 ->
  (forall L ls, 2 <= L <= set_len s -> zget (gs_spaces N gs) L = Ok (Some ls) -> exists gm, links N s L ls gm) ->
  global_saveGroups32 N IO h gs b = global_saveGroups N IO h gs b.
Proof.
  intros F1 F2. unfold global_saveGroups32, global_saveGroups. apply for_same. intros L out HL.
  destruct (zget (gs_spaces N gs) L) as [[ls|]| | |] eqn:El; cbn [bind]; auto. destruct (F2 L ls ltac:(lia) El) as (gm & Hk).
  assert (X : local_saveGroups32 N IO h ls b = local_saveGroups N IO h ls b); [|now rewrite X].
  unfold local_saveGroups32, local_saveGroups. destruct b; [reflexivity|]. apply (same_each (fun _ => True)); auto. intros g t Hg _. split; auto.
  apply in_zget in Hg as (gi & _ & Eg). destruct (zget_Ok gm gi) as (ms & Em). { destruct Hk as (_ & _ & _ & E4 & _). apply zget_inv in Eg. lia. }
  rewrite (save_group_same h L ls gm gi g ms); auto. lia.
Qed.
End OneSet.

End IntsMatch.
