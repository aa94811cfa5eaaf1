(** * Series as values: reading, and distances on series with caches. *)
From Coq Require Import ZArith Bool Lia List String.
From Verif Require Import Outcome Num Lemire Distance TimeSeries Text Dataset.
Import ListNotations.
Open Scope Z_scope.

Section TsProofs.
Context (N : NumOps).
Local Notation T := (num N).
Local Notation ts := (ts N).
Local Notation heap := (heap N).

(** The same series, up to the cached envelope. *)
Definition same_ts (t t' : ts) : Prop :=
  ts_src t = ts_src t' /\ ts_index t = ts_index t' /\ ts_start t = ts_start t' /\
  ts_end t = ts_end t' /\ ts_len t = ts_len t'.
Lemma same_refl t : same_ts t t.
Proof. now repeat split. Qed.
Lemma same_sym t t' : same_ts t t' -> same_ts t' t.
Proof. intros (A & B & C & D & E). repeat split; auto. Qed.
Lemma same_trans t u v : same_ts t u -> same_ts u v -> same_ts t v.
Proof. intros (A & B & C & D & E) (A' & B' & C' & D' & E'). repeat split; congruence. Qed.
Lemma same_read h t t' : same_ts t t' -> ts_read N h t = ts_read N h t'.
Proof. intros (A & _ & C & _ & E). unfold ts_read. now rewrite A, C, E. Qed.
Lemma same_copy t : same_ts t (ts_copy t).
Proof. now repeat split. Qed.

Lemma zslice_len {A} (l : list A) start len : 0 <= start -> 0 <= len -> start + len <= zlen l ->
  zlen (zslice l start len) = len.
Proof. intros. unfold zslice, zlen in *. rewrite firstn_length, skipn_length. lia. Qed.
Lemma window_len l start len v : window N l start len = Ok v -> 0 <= len -> zlen v = len.
Proof.
  unfold window. destruct (Z.leb_spec len 0) as [H|H].
  - intros E ?. injection E as <-. cbn. lia.
  - destruct (Z.ltb_spec start 0); [discriminate|]. destruct (Z.ltb_spec (zlen l) (start + len)); [discriminate|].
    intros E ?. injection E as <-. apply zslice_len; lia.
Qed.
Lemma ts_read_len h t v : ts_read N h t = Ok v -> 0 <= ts_len t -> zlen v = ts_len t.
Proof.
  unfold ts_read. destruct (ts_src t) as [b base|w|].
  - intros E ?. apply bind_Ok_inv in E as (l & _ & E). eapply window_len; eauto.
  - intros E ?. eapply window_len; eauto.
  - destruct (Z.leb_spec (ts_len t) 0); [|discriminate]. intros E ?. injection E as <-. cbn. lia.
Qed.

(** The cached envelope, if any, is the one of the current values. *)
Definition cache_ok (h : heap) (t : ts) : Prop :=
  match ts_cache t with
  | None => True
  | Some c => exists v, ts_read N h t = Ok v /\ generateKeoghLU N v (kc_band c) = Ok (kc_lower c, kc_upper c)
  end.
Lemma cache_None h t : ts_cache t = None -> cache_ok h t.
Proof. unfold cache_ok. now intros ->. Qed.

Lemma envelope_eq h t band v : cache_ok h t -> ts_read N h t = Ok v ->
  forall l u, generateKeoghLU N v band = Ok (l, u) ->
  exists t', ts_envelope N h t band = Ok (t', (l, u)) /\ same_ts t t' /\ cache_ok h t'.
Proof.
  intros Hc Hr l u E. unfold ts_envelope.
  assert (R : (v <- ts_read N h t ;; '(l, u) <- generateKeoghLU N v band ;;
      Ok (mkTS (ts_src t) (ts_index t) (ts_start t) (ts_end t) (ts_len t) (Some (mkCache band l u)), (l, u))) =
      Ok (mkTS (ts_src t) (ts_index t) (ts_start t) (ts_end t) (ts_len t) (Some (mkCache band l u)), (l, u))).
  { rewrite Hr. cbn [bind]. rewrite E. reflexivity. }
  assert (G : exists t', Ok (mkTS (ts_src t) (ts_index t) (ts_start t) (ts_end t) (ts_len t) (Some (mkCache band l u)), (l, u))
     = Ok (t', (l, u)) /\ same_ts t t' /\ cache_ok h t').
  { eexists. split; [reflexivity|]. split; [now repeat split|]. unfold cache_ok. cbn. exists v. split; auto. }
  unfold cache_ok in Hc. destruct (ts_cache t) as [c|] eqn:Ec; [|now rewrite R].
  destruct (Z.eqb_spec (kc_band c) band) as [<-|Hn]; [|now rewrite R].
  destruct Hc as (v' & Hr' & E'). rewrite Hr in Hr'. injection Hr' as <-. rewrite E in E'. injection E' as -> ->.
  exists t. split; auto. split; [apply same_refl|]. unfold cache_ok. rewrite Ec. eauto.
Qed.

(** Where [keoghLowerBound] on values is defined, the version on series agrees with it. *)
Lemma keogh_ts_eq h ratio a b d av bv x : cache_ok h a -> ts_read N h a = Ok av -> ts_read N h b = Ok bv ->
  0 <= ts_len a -> 0 <= ts_len b ->
  keoghLowerBound N ratio av bv d = Ok x ->
  exists a', keogh_ts N h ratio a b d = Ok (a', x) /\ same_ts a a' /\ cache_ok h a'.
Proof.
  intros Ca Ra Rb La Lb E. pose proof (ts_read_len _ _ _ Ra La) as Za. pose proof (ts_read_len _ _ _ Rb Lb) as Zb.
  unfold keoghLowerBound in E. rewrite Za, Zb in E. unfold keogh_ts.
  apply bind_Ok_inv in E as (r & Er & E). rewrite Er. cbn [bind].
  apply bind_Ok_inv in E as ((l & u) & El & E).
  destruct (envelope_eq h a r av Ca Ra l u El) as (a' & -> & S & C'). cbn [bind].
  rewrite Rb. cbn [bind]. destruct S as (S1 & S2 & S3 & S4 & S5). rewrite <- S5, E. cbn [bind].
  exists a'. split; auto. split; auto. repeat split; auto.
Qed.

Lemma cross_ts_eq h ratio a b d av bv x : cache_ok h a -> cache_ok h b -> ts_read N h a = Ok av -> ts_read N h b = Ok bv ->
  0 <= ts_len a -> 0 <= ts_len b ->
  crossKeoghLowerBound N ratio av bv d = Ok x ->
  exists a' b', crossKeogh_ts N h ratio a b d = Ok (a', b', x) /\
    same_ts a a' /\ cache_ok h a' /\ same_ts b b' /\ cache_ok h b'.
Proof.
  intros Ca Cb Ra Rb La Lb E. unfold crossKeoghLowerBound in E. apply bind_Ok_inv in E as (y & Ey & E).
  destruct (keogh_ts_eq h ratio a b d av bv y) as (a' & Ea & Sa & Ca'); auto.
  unfold crossKeogh_ts. rewrite Ea. cbn [bind]. destruct (nltb N d y).
  - injection E as <-. exists a', b. split; auto. split; auto. split; auto. split; [apply same_refl|auto].
  - apply bind_Ok_inv in E as (z & Ez & E). injection E as <-.
    destruct (keogh_ts_eq h ratio b a' d bv av z) as (b' & Eb & Sb & Cb'); auto.
    + now rewrite <- (same_read h a a').
    + destruct Sa as (_ & _ & _ & _ & <-). auto.
    + rewrite Eb. cbn [bind]. exists a', b'. auto.
Qed.

Lemma cascade_ts_eq h ratio a b d av bv x : cache_ok h a -> cache_ok h b -> ts_read N h a = Ok av -> ts_read N h b = Ok bv ->
  0 <= ts_len a -> 0 <= ts_len b ->
  cascadeDistance N ratio av bv d = Ok x ->
  exists a' b', cascade_ts N h ratio a b d = Ok (a', b', x) /\
    same_ts a a' /\ cache_ok h a' /\ same_ts b b' /\ cache_ok h b'.
Proof.
  intros Ca Cb Ra Rb La Lb E. unfold cascadeDistance in E. apply bind_Ok_inv in E as (y & Ey & E).
  destruct (cross_ts_eq h ratio a b d av bv y) as (a' & b' & Eab & Sa & Ca' & Sb & Cb'); auto.
  unfold cascade_ts. rewrite Eab. cbn [bind]. destruct (nltb N d y).
  - injection E as <-. exists a', b'. auto.
  - rewrite <- (same_read h a a' Sa), <- (same_read h b b' Sb), Ra, Rb. cbn [bind]. rewrite E. cbn [bind].
    exists a', b'. auto.
Qed.
End TsProofs.
