(** * Property C58: element access and addition of series.

    [contents], [same_cell], [updated] and [sums] are defined in AccessSpec.v. *)
From Coq Require Import ZArith Bool Lia SpecFloat String List.
From Verif Require Import Outcome Num TimeSeries TsProofs GroupProofs AccessSpec SessionProofs.
Import ListNotations.
Open Scope Z_scope.

Lemma zget_slice {A} (l : list A) s n k : 0 <= s -> 0 <= k < n -> s + n <= zlen l -> zget (zslice l s n) k = zget l (s + k).
Proof.
  intros Hs Hk Hl. unfold zget, zslice. destruct (Z.ltb_spec k 0); [lia|]. destruct (Z.ltb_spec (s + k) 0); [lia|].
  replace (Z.to_nat (s + k)) with (Z.to_nat s + Z.to_nat k)%nat by lia.
  rewrite <- (firstn_skipn (Z.to_nat s) l) at 2. unfold zlen in Hl. rewrite nth_error_app2 by (rewrite firstn_length; lia).
  rewrite firstn_length. replace (Z.to_nat s + Z.to_nat k - Nat.min (Z.to_nat s) (length l))%nat with (Z.to_nat k) by lia.
  assert (G : forall (m : list A) n k, (k < n)%nat -> nth_error (firstn n m) k = nth_error m k).
  { clear. induction m as [|x m IH]; intros [|n] [|k] H; cbn; auto; try lia. apply IH. lia. }
  now rewrite G by lia.
Qed.
Lemma zslice_zlen {A} (l : list A) s n : 0 <= s -> 0 <= n -> s + n <= zlen l -> zlen (zslice l s n) = n.
Proof. intros Hs Hn Hl. unfold zlen, zslice in *. rewrite firstn_length, skipn_length. lia. Qed.

Lemma nth_error_ext {A} (l l' : list A) : (forall n, nth_error l n = nth_error l' n) -> l = l'.
Proof.
  revert l'. induction l as [|x l IH]; intros [|y l'] H; auto; try (specialize (H O); discriminate).
  f_equal; [specialize (H O); cbn in H; congruence|]. apply IH. intros n. exact (H (S n)).
Qed.

Lemma zset_ex {A} (l : list A) i x : 0 <= i < zlen l -> exists l', zset l i x = Ok l'.
Proof. intros H. eexists. now apply zset_Ok. Qed.

Section Access.
Context (N : NumOps).
Local Notation T := (num N).
Local Notation contents := (contents N).
Local Notation same_cell := (same_cell N).

(** The array behind a series and the position of its first element. *)
Definition arr (h : heap N) (t : ts N) : outcome (list T * Z) :=
  match ts_src t with
  | View b p => l <- heap_get N h b ;; Ok (l, p + ts_start t)
  | Owned w => Ok (w, ts_start t)
  | Null => Ok ([], 0)
  end.
Lemma contents_arr h t v : contents h t v <-> 0 <= ts_len t /\ exists a s, arr h t = Ok (a, s) /\ zlen v = ts_len t /\
  (0 < ts_len t -> 0 <= s /\ s + ts_len t <= zlen a) /\ forall k, 0 <= k < ts_len t -> zget v k = zget a (s + k).
Proof.
  assert (Hnil : forall w : list T, zlen w <= 0 -> w = []) by (intros [|x w] H; auto; unfold zlen in H; cbn [length] in H; lia).
  assert (W : forall a s, window N a s (ts_len t) = Ok v /\ zlen v = ts_len t <-> 0 <= ts_len t /\ zlen v = ts_len t /\
     (0 < ts_len t -> 0 <= s /\ s + ts_len t <= zlen a) /\ forall k, 0 <= k < ts_len t -> zget v k = zget a (s + k)).
  { intros a s. unfold window. split.
    - intros (E & Ez). pose proof (zlen_nonneg v). split; [lia|]. split; auto. destruct (Z.leb_spec (ts_len t) 0); [split; intros; lia|].
      destruct (Z.ltb_spec s 0); [discriminate|]. destruct (Z.ltb_spec (zlen a) (s + ts_len t)); [discriminate|]. cbn [orb] in E. injection E as <-.
      split; [lia|]. intros k Hk. apply zget_slice; lia.
    - intros (H0 & Ez & Hb & Hk). split; auto. destruct (Z.leb_spec (ts_len t) 0); [f_equal; symmetry; apply Hnil; lia|].
      destruct (Z.ltb_spec s 0); [lia|]. destruct (Z.ltb_spec (zlen a) (s + ts_len t)); [lia|]. cbn [orb]. f_equal.
      pose proof (zslice_zlen a s (ts_len t) ltac:(lia) ltac:(lia) ltac:(lia)) as Hz.
      apply nth_error_ext. intros n. destruct (Nat.lt_ge_cases n (length v)) as [Hn|Hn].
      + specialize (Hk (Z.of_nat n)). rewrite <- (zget_slice a s (ts_len t)) in Hk by (unfold zlen in Ez; lia).
        unfold zget in Hk. destruct (Z.ltb_spec (Z.of_nat n) 0); [lia|]. rewrite Nat2Z.id in Hk.
        assert (Hk' := Hk ltac:(unfold zlen in Ez; lia)). symmetry.
        destruct (nth_error v n), (nth_error (zslice a s (ts_len t)) n); try discriminate; congruence.
      + unfold zlen in *. rewrite !(proj2 (nth_error_None _ _)); auto; lia. }
  unfold AccessSpec.contents, ts_read, arr. destruct (ts_src t) as [b p|w|].
  - destruct (heap_get N h b) as [l| | |]; cbn [bind]; try (split; [intros (E & _); discriminate E|intros (_ & a & s & E & _); discriminate E]).
    rewrite W. split.
    + intros (H0 & H1 & H2 & H3). split; auto. exists l, (p + ts_start t). auto.
    + intros (H0 & a & s & E & H). injection E as <- <-. auto.
  - rewrite W. split.
    + intros (H0 & H1 & H2 & H3). split; auto. exists w, (ts_start t). auto.
    + intros (H0 & a & s & E & H). injection E as <- <-. auto.
  - split.
    + intros (E & Ez). pose proof (zlen_nonneg v). split; [lia|]. exists [], 0. destruct (Z.leb_spec (ts_len t) 0); [|discriminate].
      split; auto. split; auto. split; intros; lia.
    + intros (H0 & a & s & E & Ez & Hb & _). injection E as <- <-. split; auto. destruct (Z.leb_spec (ts_len t) 0); [f_equal; symmetry; apply Hnil; lia|].
      destruct (Hb H) as (_ & Hb'). unfold zlen in Hb'. cbn in Hb'. lia.
Qed.

(** Reading. *)
Theorem C58_read : forall h t v i, contents h t v -> 0 <= i < ts_len t -> exists x, zget v i = Ok x /\ ts_get N h t i = Ok x.
Proof.
  intros h t v i H Hi. apply contents_arr in H as (_ & a & s & E & Ez & Hb & Hk). specialize (Hb ltac:(lia)). specialize (Hk i Hi).
  destruct (zget_Ok a (s + i)) as (x & Ex); [lia|]. exists x. split; [congruence|]. unfold ts_get.
  destruct (Z.ltb_spec i 0); [lia|]. destruct (Z.leb_spec (ts_len t) i); [lia|]. cbn [orb]. unfold arr in E. destruct (ts_src t) as [b p|w|].
  - destruct (heap_get N h b); try discriminate. cbn [bind] in *. injection E as -> <-. exact Ex.
  - injection E as -> <-. exact Ex.
  - injection E as <- <-. apply zget_inv in Ex as (Ex & _). unfold zlen in Ex. cbn in Ex. lia.
Qed.
(** Any other index throws, for reading and for writing, whatever the series points to. *)
Theorem C58_range : forall h t i x, ~ 0 <= i < ts_len t ->
  ts_get N h t i = Throw (OnexExn "Data point index is out of range") /\ ts_set N h t i x = Throw (OnexExn "Data point index is out of range").
Proof.
  intros h t i x Hi. unfold ts_get, ts_set. destruct (Z.ltb_spec i 0); [auto|]. destruct (Z.leb_spec (ts_len t) i); [auto|lia].
Qed.

Lemma write_ok h t v i x : contents h t v -> 0 <= i < ts_len t -> exists h' t', ts_write N h t i x = Ok (h', t') /\
  ts_index t' = ts_index t /\ ts_start t' = ts_start t /\ ts_end t' = ts_end t /\ ts_len t' = ts_len t /\ ts_cache t' = ts_cache t /\
  (exists v', contents h' t' v' /\ updated N v i x v') /\
  (forall j k u, same_cell j k t' u <-> same_cell j k t u) /\ (forall j k u, same_cell t' k j u <-> same_cell t k j u) /\
  (forall u w, contents h u w -> exists w', contents h' u w' /\ zlen w' = zlen w /\ forall k, 0 <= k < zlen w ->
     (same_cell u k t i -> zget w' k = Ok x) /\ (~ same_cell u k t i -> zget w' k = zget w k)).
Proof.
  intros H Hi. pose proof H as Hc. apply contents_arr in H as (_ & a & s & E & Ez & Hb & Hk). specialize (Hb ltac:(lia)).
  assert (Hs : 0 <= s + i < zlen a) by lia. unfold ts_write. unfold arr in E.
  assert (New : forall (a' : list T), zset a (s + i) x = Ok a' -> exists v', zlen v' = zlen v /\ zget v' i = Ok x /\ (forall k, k <> i -> zget v' k = zget v k) /\
      forall k, 0 <= k < ts_len t -> zget v' k = zget a' (s + k)).
  { intros a' Ea. destruct (zset_ex v i x) as (v' & Ev); [lia|]. exists v'. split; [now apply zset_len in Ev|]. split; [now apply zget_zset_eq in Ev|].
    split; [intros k Hn; eapply zget_zset_neq; eauto|]. intros k Hk'. destruct (Z.eq_dec k i) as [->|Hn].
    - now rewrite (zget_zset_eq _ _ _ _ Ev), (zget_zset_eq _ _ _ _ Ea).
    - rewrite (zget_zset_neq _ _ _ _ _ Ev), (zget_zset_neq _ _ _ _ _ Ea) by lia. auto. }
  destruct (zset_ex a (s + i) x Hs) as (a' & Ea). destruct (New a' Ea) as (v' & V1 & V2 & V3 & V4). pose proof (zset_len _ _ _ _ Ea) as La.
  destruct (ts_src t) as [b p|w0|] eqn:Et.
  - destruct (heap_get N h b) as [l| | |] eqn:El; try discriminate. cbn [bind] in E. injection E as -> <-. cbn [bind]. rewrite Ea. cbn [bind].
    pose proof (heap_get_set_same N h b a a' El) as Eh.
    exists (list_set h b (Some a')), t. split; [reflexivity|]. do 5 (split; [reflexivity|]). split; [|split; [tauto|split; [tauto|]]].
    + exists v'. split; [|now repeat split]. apply contents_arr. split; [lia|]. exists a', (p + ts_start t). unfold arr. rewrite Et, Eh. cbn [bind].
      split; auto. split; [lia|]. split; [lia|exact V4].
    + intros u w Hu. apply contents_arr in Hu as (Hu0 & au & su & Eu & Zu & Bu & Ku). unfold arr in Eu. destruct (ts_src u) as [c q|wu|] eqn:Es.
      * destruct (Nat.eq_dec c b) as [->|Hn].
        -- rewrite El in Eu. cbn [bind] in Eu. injection Eu as <- <-.
           exists (zslice a' (q + ts_start u) (ts_len u)). unfold AccessSpec.same_cell. rewrite Es, Et.
           assert (Hz : zlen (zslice a' (q + ts_start u) (ts_len u)) = ts_len u).
           { destruct (Z.eq_dec (ts_len u) 0) as [->|]; [reflexivity|]. apply zslice_zlen; lia. }
           split; [|split; [lia|]].
           ++ apply contents_arr. split; [lia|]. exists a', (q + ts_start u). unfold arr. rewrite Es, Eh. cbn [bind]. split; auto. split; auto. split; [lia|].
              intros k Hk'. apply zget_slice; lia.
           ++ intros k Hk'. rewrite zget_slice by lia. split.
              ** intros (_ & ->). now apply zget_zset_eq in Ea.
              ** intros Hne. rewrite (zget_zset_neq _ _ _ _ _ Ea); [symmetry; apply Ku; lia|]. intros X. apply Hne. split; auto; lia.
        -- exists w. split; [|split; auto].
           ++ apply contents_arr. split; auto. exists au, su. unfold arr. rewrite Es, heap_get_set_other by auto. auto.
           ++ intros k _. unfold AccessSpec.same_cell. rewrite Es, Et. split; [intros (X & _); congruence|auto].
      * exists w. split; [|split; auto].
        -- apply contents_arr. split; auto. exists au, su. unfold arr. rewrite Es. auto.
        -- intros k _. unfold AccessSpec.same_cell. rewrite Es. split; [intros []|auto].
      * exists w. split; [|split; auto].
        -- apply contents_arr. split; auto. exists au, su. unfold arr. rewrite Es. auto.
        -- intros k _. unfold AccessSpec.same_cell. rewrite Es. split; [intros []|auto].
  - injection E as -> <-. rewrite Ea. cbn [bind]. eexists h, _. split; [reflexivity|]. cbn [ts_index ts_start ts_end ts_len ts_cache].
    do 5 (split; [reflexivity|]). split; [|split; [|split]].
    + exists v'. split; [|now repeat split]. apply contents_arr. cbn [ts_len]. split; [lia|]. exists a', (ts_start t). unfold arr. cbn [ts_src ts_start].
      split; auto. split; [lia|]. split; [lia|exact V4].
    + intros j k u. unfold AccessSpec.same_cell. rewrite Et. cbn [ts_src]. tauto.
    + intros j k u. unfold AccessSpec.same_cell. rewrite Et. cbn [ts_src]. tauto.
    + intros u w Hu. exists w. split; auto. split; auto. intros k _. unfold AccessSpec.same_cell. rewrite Et. destruct (ts_src u); tauto.
  - injection E as <- <-. unfold zlen in Hs. cbn in Hs. lia.
Qed.
(** Writing changes that element, and in other series exactly the elements that are the same cell. *)
Theorem C58_write : forall h t v i x, contents h t v -> 0 <= i < ts_len t ->
  exists h' t' v', ts_set N h t i x = Ok (h', t') /\ contents h' t' v' /\ updated N v i x v' /\
    ts_index t' = ts_index t /\ ts_start t' = ts_start t /\ ts_end t' = ts_end t /\
    forall u w, contents h u w -> exists w', contents h' u w' /\ zlen w' = zlen w /\ forall k, 0 <= k < zlen w ->
      (same_cell u k t i -> zget w' k = Ok x) /\ (~ same_cell u k t i -> zget w' k = zget w k).
Proof.
  intros h t v i x H Hi. destruct (write_ok h t v i x H Hi) as (h' & t' & E & A1 & A2 & A3 & A4 & _ & (v' & C & U) & _ & _ & F).
  exists h', t', v'. unfold ts_set. destruct (Z.ltb_spec i 0); [lia|]. destruct (Z.leb_spec (ts_len t) i); [lia|]. cbn [orb]. auto 10.
Qed.

(** Addition: pointwise, unless an element of the other series that is still to be read is a cell that was already changed. *)
Theorem C58_add : forall h t o v w, contents h t v -> contents h o w -> ts_len t = ts_len o ->
  (forall k l, 0 <= k < l -> l < ts_len t -> ~ same_cell o l t k) ->
  exists h' t' s, ts_plus_assign N h t o = Ok (h', t') /\ contents h' t' s /\ sums N v w s /\ ts_cache t' = None /\
    forall u z, contents h u z -> (forall k i, 0 <= k < zlen z -> 0 <= i < ts_len t -> ~ same_cell u k t i) -> contents h' u z.
Proof.
  intros h t o v w Ht Ho Hl Hna. unfold ts_plus_assign. rewrite <- Hl, Z.eqb_refl. cbn [negb].
  pose proof (proj2 Ht) as Lt'. pose proof (proj2 Ho) as Lo. pose proof (zlen_nonneg v) as Pv.
  set (I := fun (k : Z) (s : heap N * ts N) => let '(h1, t1) := s in ts_len t1 = ts_len t /\ (forall j k u, same_cell j k t1 u <-> same_cell j k t u) /\
     (exists v1, contents h1 t1 v1 /\ forall j x y, zget v j = Ok x -> zget w j = Ok y -> zget v1 j = Ok (if j <? k then nadd N x y else x)) /\
     (exists w1, contents h1 o w1 /\ forall j, k <= j < ts_len t -> zget w1 j = zget w j) /\
     forall u z, contents h u z -> (forall k i, 0 <= k < zlen z -> 0 <= i < ts_len t -> ~ same_cell u k t i) -> contents h1 u z).
  assert (P : Post (for_ 0 (ts_len t) (fun i s => let '(h, t) := s in o0 <- ts_get N h o i ;; x <- ts_get N h t i ;; ts_write N h t i (nadd N x o0)) (h, t)) (I (ts_len t))).
  { apply for_rule_le; [lia| |].
    - split; auto. split; [tauto|]. split; [|split; [exists w; auto|auto]]. exists v. split; auto. intros j x y Hx Hy.
      apply zget_inv in Hx as Hx'. destruct (Z.ltb_spec j 0); [lia|auto].
    - intros i (h1 & t1) Hi (L1 & S1 & (v1 & C1 & V1) & (w1 & D1 & W1) & F1).
      destruct (C58_read h1 o w1 i D1 ltac:(lia)) as (y & Ey & ->). cbn [bind].
      destruct (C58_read h1 t1 v1 i C1 ltac:(lia)) as (x & Ex & ->). cbn [bind].
      destruct (write_ok h1 t1 v1 i (nadd N x y) C1 ltac:(lia)) as (h2 & t2 & E2 & A1 & A2 & A3 & A4 & A5 & (v2 & C2 & U1 & U2 & U3) & S2 & _ & F2).
      rewrite E2. apply Post_Ok. cbn. split; [lia|]. split; [intros; rewrite S2; apply S1|].
      rewrite (W1 i ltac:(lia)) in Ey. split; [|split].
      + exists v2. split; auto. intros j a b Ha Hb. destruct (Z.eq_dec j i) as [->|Hn].
        * replace (i <? i + 1) with true by lia. rewrite U2. rewrite (V1 i a b Ha Hb) in Ex. destruct (Z.ltb_spec i i); [lia|]. congruence.
        * rewrite U3, (V1 j a b Ha Hb) by auto. replace (j <? i + 1) with (j <? i) by lia. reflexivity.
      + destruct (F2 o w1 D1) as (w2 & D2 & Z2 & K2). exists w2. split; auto. intros j Hj. destruct (K2 j) as (_ & K).
        { pose proof (proj2 D1). lia. }
        rewrite K; [apply W1; lia|]. rewrite S1. apply Hna; lia.
      + intros u z Hu Hne. destruct (F2 u z (F1 u z Hu Hne)) as (z2 & Cz & Zz & Kz). replace z with z2; auto.
        apply nth_error_ext. intros n. destruct (Nat.lt_ge_cases n (length z)) as [Hn|Hn].
        * destruct (Kz (Z.of_nat n)) as (_ & K); [unfold zlen; lia|]. specialize (K ltac:(rewrite S1; apply Hne; unfold zlen in *; lia)).
          unfold zget in K. destruct (Z.ltb_spec (Z.of_nat n) 0); [lia|]. rewrite Nat2Z.id in K.
          destruct (nth_error z2 n), (nth_error z n); try discriminate; congruence.
        * unfold zlen in *. rewrite !(proj2 (nth_error_None _ _)); auto; lia. }
  destruct (Post_inv _ _ P) as ((h1 & t1) & E & L1 & S1 & (v1 & C1 & V1) & _ & F1). rewrite E. cbn [bind].
  exists h1, (ts_invalidate t1), v1. split; [reflexivity|]. split; [exact C1|]. split; [|split; [reflexivity|exact F1]].
  split; [pose proof (proj2 C1); lia|]. intros k x y Hx Hy. rewrite (V1 k x y Hx Hy). apply zget_inv in Hx as (Hx & _). destruct (Z.ltb_spec k (ts_len t)); [reflexivity|lia].
Qed.
Theorem C58_add_length : forall h t o, ts_len t <> ts_len o ->
  ts_plus_assign N h t o = Throw (OnexExn "Two time series must have the same length for addition").
Proof. intros h t o H. unfold ts_plus_assign. destruct (Z.eqb_spec (ts_len o) (ts_len t)); [congruence|reflexivity]. Qed.
End Access.

(** Without the condition the sum is another one: 1 1 1 1, elements 1-3 plus elements 0-2. *)
Definition ov_buf : heap F64 := [Some (map f64_ofZ [1; 1; 1; 1])].
Definition ov_t : ts F64 := ts_view 0 0 0 1 4.
Definition ov_o : ts F64 := ts_view 0 0 0 0 3.
Definition sf_eqb (x y : spec_float) : bool :=
  match x, y with
  | S754_zero s, S754_zero s' | S754_infinity s, S754_infinity s' => Bool.eqb s s'
  | S754_nan, S754_nan => true
  | S754_finite s m e, S754_finite s' m' e' => Bool.eqb s s' && Pos.eqb m m' && Z.eqb e e'
  | _, _ => false
  end.
Fixpoint sfs_eqb (v w : list spec_float) : bool :=
  match v, w with [], [] => true | x :: v, y :: w => sf_eqb x y && sfs_eqb v w | _, _ => false end.
Definition has_contents (h : heap F64) (t : ts F64) (v : list spec_float) : bool :=
  match ts_read F64 h t with Ok w => sfs_eqb w v && (zlen w =? ts_len t) | _ => false end.
Lemma sf_eqb_eq x y : sf_eqb x y = true -> x = y.
Proof.
  destruct x as [s|s| |s m e], y as [s'|s'| |s' m' e']; cbn; intros H; try discriminate; auto.
  - apply Bool.eqb_prop in H. now subst.
  - apply Bool.eqb_prop in H. now subst.
  - apply andb_prop in H as (H & He). apply andb_prop in H as (H & Hm). apply Bool.eqb_prop in H. apply Pos.eqb_eq in Hm. apply Z.eqb_eq in He. now subst.
Qed.
Lemma sfs_eqb_eq v : forall w, sfs_eqb v w = true -> v = w.
Proof.
  induction v as [|x v IH]; intros [|y w] H; auto; try discriminate. cbn in H. apply andb_prop in H as (H & H'). f_equal; [now apply sf_eqb_eq|now apply IH].
Qed.
Lemma has_contents_ok h t v : has_contents h t v = true -> contents F64 h t v.
Proof.
  unfold has_contents, contents. destruct (ts_read F64 h t) as [w| | |]; intros H; try discriminate.
  apply andb_prop in H as (H & H'). apply sfs_eqb_eq in H. apply Z.eqb_eq in H'. subst. auto.
Qed.
Lemma ov_add : match ts_plus_assign F64 ov_buf ov_t ov_o with Ok (h', t') => has_contents h' t' (map f64_ofZ [2; 3; 4]) | _ => false end = true.
Proof. vm_compute. reflexivity. Qed.
Lemma ov_t_contents : has_contents ov_buf ov_t (map f64_ofZ [1; 1; 1]) = true.
Proof. vm_compute. reflexivity. Qed.
Lemma ov_o_contents : has_contents ov_buf ov_o (map f64_ofZ [1; 1; 1]) = true.
Proof. vm_compute. reflexivity. Qed.
Theorem C58_overlap_witness : exists h' t', ts_plus_assign F64 ov_buf ov_t ov_o = Ok (h', t') /\
  contents F64 ov_buf ov_t (map f64_ofZ [1; 1; 1]) /\ contents F64 ov_buf ov_o (map f64_ofZ [1; 1; 1]) /\ contents F64 h' t' (map f64_ofZ [2; 3; 4]).
Proof.
  pose proof ov_add as H. destruct (ts_plus_assign F64 ov_buf ov_t ov_o) as [[h' t']| | |]; try discriminate. exists h', t'. split; [reflexivity|].
  split; [apply has_contents_ok, ov_t_contents|]. split; [apply has_contents_ok, ov_o_contents|]. now apply has_contents_ok.
Qed.
Example C58_case : contents F64 ov_buf ov_t (map f64_ofZ [1; 1; 1]) /\ 0 <= 2 < 3 /\ same_cell F64 ov_t 1 ov_o 2 /\
  contents F64 ov_buf ov_o (map f64_ofZ [1; 1; 1]) /\ ts_len ov_o = ts_len ov_t /\ ts_len ov_t = 3 /\
  (forall k l, 0 <= k < l -> l < 3 -> ~ same_cell F64 ov_t l ov_o k).
Proof.
  split; [apply has_contents_ok, ov_t_contents|]. split; [lia|]. split; [split; reflexivity|]. split; [apply has_contents_ok, ov_o_contents|].
  split; [reflexivity|]. split; [reflexivity|]. intros k l H H' (_ & X). change (0 + 1 + l = 0 + 0 + k) in X. lia.
Qed.
