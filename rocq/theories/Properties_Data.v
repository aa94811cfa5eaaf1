(** * Properties C32 (PAA), C34 and C35 (normalization).

    [dataset], [cell] and [mean] are defined in GroupSpec.v. *)
From Coq Require Import ZArith Bool Lia Reals Lra SpecFloat String List.
From Verif Require Import Outcome Num RX Lemire Distance TimeSeries Text Dataset Groups Api Laws F64Base RXLaws.
From Verif Require Import TsProofs GroupSpec GroupProofs GlobalGroup GlobalGroup SessionProofs ApiProofs DataProofs NormProofs Numeric.
From Verif Require Import Properties_Api.
Import ListNotations.
Open Scope Z_scope.

(** ** C32: PAA. *)
(** For any arithmetic: the dataset keeps its name, flags, threshold and number of series, the item length becomes
    the length divided by [n], rounded up, and value [k] of a series is the mean of block [k] of the series. *)
Theorem C32_PAA : forall N IO writable (σ : st N) i n d data, dataset N σ i d data -> 1 <= n -> 1 <= set_len (ds_set N d) ->
  let len := set_len (ds_set N d) in let len' := (len + n - 1) / n in
  exists σ' d' data',
    step N IO writable σ (OpPAA N i n) = Done N σ' (VInfo N (mkInfo i (set_path (ds_set N d)) (set_count (ds_set N d)) len'
      (match ds_groups N d with Some _ => true | None => false end) (set_norm (ds_set N d)))) /\
    dataset N σ' i d' data' /\ set_count (ds_set N d') = set_count (ds_set N d) /\ set_len (ds_set N d') = len' /\
    set_path (ds_set N d') = set_path (ds_set N d) /\ set_norm (ds_set N d') = set_norm (ds_set N d) /\
    ds_groups N d' = ds_groups N d /\ ds_thr N d' = ds_thr N d /\
    forall t k, 0 <= t < set_count (ds_set N d) -> 0 <= k < len' ->
      cell N d' data' t k (mean N (zslice data (t * len + k * n) (Z.min n (len - k * n)))).
Proof.
  intros N IO writable σ i n d data (C & b & Hb & Hh & Hc & Hz) Hn Hl len len'. cbn [step]. unfold api_PAA. rewrite C. cbn [lift].
  destruct (PAA_spec N (st_heap N σ) (ds_set N d) n b data Hn Hl Hc Hb Hh Hz) as (new & E & L & V). rewrite E. cbn [lift].
  fold len in V, E |- *. fold len' in V, E, L |- *.
  eexists. eexists (mkDS N (mkSet (Some (length (st_heap N σ))) len' (set_count (ds_set N d)) (set_path (ds_set N d)) (set_norm (ds_set N d))) (ds_groups N d) (ds_thr N d)), new.
  split; [reflexivity|]. split; [|do 6 (split; [reflexivity|])].
  - split; [apply check_put; exact (proj1 (check_inv N _ _ _ C))|]. exists (length (st_heap N σ)). split; [reflexivity|].
    split; [|cbn [ds_set set_count set_len]; split; [auto|rewrite L; apply Z.le_refl]]. 
    replace (length (st_heap N σ)) with (length (hfree N (st_heap N σ) (Some b))) by apply hfree_length. apply heap_get_alloc.
  - intros t k Ht Hk. split; [exact Ht|]. split; [exact Hk|]. cbn [ds_set set_len]. rewrite V by auto. reflexivity.
Qed.
(** In exact arithmetic [mean] is the mean. *)
Theorem C32_mean_exact : forall (l : list R), l <> [] ->
  mean RX (map Fin l) = Fin (fold_right Rplus 0%R l / INR (length l))%R.
Proof.
  intros l Hl. unfold mean. cbn [nadd nzero ndiv nofZ RX].
  assert (F : forall l a, fold_left rx_add (map Fin l) (Fin a) = Fin (a + fold_right Rplus 0 l)%R).
  { clear. induction l as [|x l IH]; intros a; cbn [map fold_left fold_right rx_add]; [f_equal; lra|]. rewrite IH. f_equal. lra. }
  rewrite F, Rplus_0_l. unfold zlen. rewrite map_length. cbn [rx_div]. rewrite <- INR_IZR_INZ.
  destruct (Req_EM_T (INR (length l)) 0) as [E|E]; auto. exfalso. apply (INR_eq _ 0) in E. destruct l; [congruence|discriminate].
Qed.
(** PAA(1) changes no double, except that it turns -0 into +0. *)
Theorem C32_PAA_one : forall IO writable (σ : st F64) i d data, dataset F64 σ i d data -> 1 <= set_len (ds_set F64 d) ->
  exists σ' v d' data', step F64 IO writable σ (OpPAA F64 i 1) = Done F64 σ' v /\ dataset F64 σ' i d' data' /\
    set_count (ds_set F64 d') = set_count (ds_set F64 d) /\ set_len (ds_set F64 d') = set_len (ds_set F64 d) /\
    forall t k x, cell F64 d data t k x -> is_f64 x = true ->
      cell F64 d' data' t k (match x with S754_zero _ => S754_zero false | _ => x end).
Proof.
  intros IO writable σ i d data D Hl.
  destruct (C32_PAA F64 IO writable σ i 1 d data D ltac:(lia) Hl) as (σ' & d' & data' & E & D' & E1 & E2 & _ & _ & _ & _ & V).
  replace (set_len (ds_set F64 d) + 1 - 1) with (set_len (ds_set F64 d)) in * by lia. rewrite Z.div_1_r in *.
  exists σ'. eexists. exists d', data'. split; [exact E|]. do 3 (split; [auto|]). intros t k x (H1 & H2 & H3) Hx.
  specialize (V t k H1 H2).
  assert (M : mean F64 (zslice data (t * set_len (ds_set F64 d) + k * 1) (Z.min 1 (set_len (ds_set F64 d) - k * 1))) =
    match x with S754_zero _ => S754_zero false | _ => x end); [|now rewrite M in V].
  rewrite Z.min_l by lia. rewrite Z.mul_1_r. change 1 with (0 + 1).
  rewrite (zslice_snoc data (t * set_len (ds_set F64 d) + k) 0 x) by (try nia; now rewrite Z.add_0_r).
  rewrite zslice_0. unfold mean. cbn [app fold_left nadd nzero ndiv nofZ F64].
  change (zlen [x]) with 1.
  assert (One : fin64 (f64_ofZ 1) /\ val (f64_ofZ 1) = 1%R).
  { pose proof (small64_Z 1 ltac:(lia)) as (F & _). split; auto. destruct (ofZ_rnd 1) as (_ & ->).
    rewrite (rnd_id 1 format1). apply clip_id. assert (2 <= BIG)%R by (change 2%R with (Core.Raux.bpow Core.Zaux.radix2 1); apply Core.Raux.bpow_le; lia). lra. }
  destruct One as (F1 & V1).
  destruct x as [s|s| |s m e]; [destruct s; reflexivity|destruct s; reflexivity|reflexivity|].
  change (SFadd prec64 emax64 (S754_zero false) (S754_finite s m e)) with (S754_finite s m e).
  set (x := S754_finite s m e) in *. assert (Fx : fin64 x) by (split; [exact Hx|exact I]).
  destruct (div_rnd x (f64_ofZ 1) Fx F1 ltac:(rewrite V1; exact R1_neq_R0)) as (O & W). rewrite V1 in W. unfold Rdiv in W. rewrite Rinv_1, Rmult_1_r, (rnd_val x Fx) in W.
  pose proof (val_fin_bound x Fx) as (B1 & B2). rewrite clip_id in W by (split; apply Rlt_le; assumption).
  apply val_inj_nz; [apply fin_val_bound; [exact O|]|exact Fx|exact W|].
  - change (- BIG < val (SFdiv prec64 emax64 x (f64_ofZ 1)) < BIG)%R. rewrite W. split; assumption.
  - change (val (SFdiv prec64 emax64 x (f64_ofZ 1)) <> 0%R). rewrite W. unfold x. cbn [val]. intros Z0.
    apply Core.Float_prop.eq_0_F2R in Z0. destruct s; discriminate.
Qed.
Theorem C32_bad_block : forall N IO writable (σ : st N) i n d, has_dataset N σ i d -> n <= 0 ->
  step N IO writable σ (OpPAA N i n) = Exn N σ (OnexExn "Block size must be positive").
Proof.
  intros N IO writable σ i n d H Hn. apply has_check in H. cbn [step]. unfold api_PAA. rewrite H. cbn [lift]. unfold PAA.
  destruct (Z.leb_spec n 0); [reflexivity|lia].
Qed.

(** ** C34: normalization. *)
(** All columns are looked at if the item length is even or the number of series odd. *)
Definition parity_ok (d : dset F64) : Prop := Z.even (set_len (ds_set F64 d)) = true \/ Z.odd (set_count (ds_set F64 d)) = true.
(** The result of normalizing dataset [i] with values [data]: session, returned extremes, dataset and values. *)
Definition normalized_to (IO : NumIO F64) writable (σ : st F64) i (σ' : st F64) (mn mx : num F64) (d' : dset F64) (data' : list (num F64)) : Prop :=
  step F64 IO writable σ (OpNormalize F64 i) = Done F64 σ' (VPair F64 mn mx) /\ dataset F64 σ' i d' data'.

Lemma norm_inv IO writable σ i d data : dataset F64 σ i d data -> Forall fin64 data -> 1 <= set_len (ds_set F64 d) -> 1 <= set_count (ds_set F64 d) ->
  exists σ' mn mx d' data', normalized_to IO writable σ i σ' mn mx d' data' /\
    d' = mkDS F64 (mkSet (set_buf (ds_set F64 d)) (set_len (ds_set F64 d)) (set_count (ds_set F64 d)) (set_path (ds_set F64 d)) true) (ds_groups F64 d) (ds_thr F64 d) /\
    ext (seen data (set_count (ds_set F64 d)) (set_len (ds_set F64 d)) (columns_seen (set_count (ds_set F64 d)) (set_len (ds_set F64 d)))) (mn, mx) /\
    zlen data' = zlen data /\
    (forall t j x, cell F64 d data t j x -> cell F64 d' data' t j (norm_fun mn mx x)) /\
    (forall p, set_count (ds_set F64 d) * set_len (ds_set F64 d) <= p -> zget data' p = zget data p).
Proof.
  intros (C & b & Hb & Hh & Hc & Hz) F Hl Hc1. pose proof (proj1 (check_inv F64 _ _ _ C)) as Hr.
  destruct (normalize_spec (st_heap F64 σ) (ds_set F64 d) b data Hl Hc1 Hb Hh Hz F) as (mn & mx & data' & E & X & Zl & V & W).
  eexists. exists mn, mx. eexists. exists data'. split; [split|].
  - cbn [step]. unfold api_normalize. rewrite C. cbn [lift]. rewrite E. cbn [lift]. reflexivity.
  - split; [apply check_put; exact Hr|]. exists b. split; [reflexivity|]. split; [eapply heap_get_set_same; eauto|]. cbn [ds_set set_count set_len].
    split; [lia|]. rewrite Zl. exact Hz.
  - rewrite Hb. split; [reflexivity|]. split; [exact X|]. split; [exact Zl|]. split; [|exact W].
    intros t j x (H1 & H2 & H3). split; [exact H1|]. split; [exact H2|]. cbn [ds_set set_len]. apply V; auto.
Qed.
Lemma columns_all d : parity_ok d -> columns_seen (set_count (ds_set F64 d)) (set_len (ds_set F64 d)) = set_len (ds_set F64 d).
Proof.
  unfold parity_ok, columns_seen. rewrite <- Z.negb_odd. rewrite <- (Z.negb_odd (set_count _)).
  intros [H|H]; [apply negb_true_iff in H; now rewrite H|]. rewrite H. now rewrite andb_false_r.
Qed.

(** The extremes are those of the columns looked at: all, or all but the last one. *)
Theorem C34_extremes : forall IO writable (σ : st F64) i d data,
  dataset F64 σ i d data -> Forall fin64 data -> 1 <= set_len (ds_set F64 d) -> 1 <= set_count (ds_set F64 d) ->
  let c := if Z.odd (set_len (ds_set F64 d)) && Z.even (set_count (ds_set F64 d)) then set_len (ds_set F64 d) - 1 else set_len (ds_set F64 d) in
  exists σ' mn mx d' data', normalized_to IO writable σ i σ' mn mx d' data' /\
    set_count (ds_set F64 d') = set_count (ds_set F64 d) /\ set_len (ds_set F64 d') = set_len (ds_set F64 d) /\
    set_path (ds_set F64 d') = set_path (ds_set F64 d) /\ set_norm (ds_set F64 d') = true /\
    (forall t j x, cell F64 d data t j x -> j < c -> le F64 mn x /\ le F64 x mx) /\
    (1 <= c -> (exists t j, j < c /\ cell F64 d data t j mn) /\ (exists t j, j < c /\ cell F64 d data t j mx)) /\
    (c = 0 -> mn = S754_infinity false /\ mx = S754_infinity true).
Proof.
  intros IO writable σ i d data D F Hl Hc c.
  destruct (norm_inv IO writable σ i d data D F Hl Hc) as (σ' & mn & mx & d' & data' & R & -> & (X1 & X2) & _ & V & _).
  change (columns_seen _ _) with c in X1, X2. exists σ', mn, mx. eexists. exists data'. split; [exact R|]. do 4 (split; [reflexivity|]).
  destruct D as (_ & b & _ & _ & _ & Hz).
  assert (Hcl : c <= set_len (ds_set F64 d)) by (unfold c; destruct (_ && _); lia).
  assert (S : forall x, seen data (set_count (ds_set F64 d)) (set_len (ds_set F64 d)) c x <-> exists t j, j < c /\ cell F64 d data t j x).
  { intros x. unfold seen, cell. split; intros (t & j & H); exists t, j; repeat split; try tauto; lia. }
  cbn [fst snd] in X1, X2.
  assert (K : 1 <= c -> exists t j, j < c /\ cell F64 d data t j mn /\ exists t j, j < c /\ cell F64 d data t j mx).
  { intros K. destruct X2 as [(_ & _ & N)|(X2 & X3)].
    - exfalso. destruct (zget_Ok data (0 * set_len (ds_set F64 d) + 0)) as (x & Hx); [nia|]. apply (N x). exists 0, 0. repeat split; try lia. exact Hx.
    - apply S in X2, X3. destruct X2 as (t & j & H1 & H2). exists t, j. auto. }
  split; [|split].
  - intros t j x Hx Hj. destruct (X1 x) as (Fx & L1 & L2); [apply S; eauto|].
    destruct (K ltac:(destruct Hx as (_ & ? & _); lia)) as (t1 & j1 & J1 & M1 & t2 & j2 & J2 & M2).
    assert (Omn : fin64 mn) by (apply X1, S; eauto). assert (Omx : fin64 mx) by (apply X1, S; eauto).
    split; apply ltb_false; auto using fin_ok.
  - intros H. destruct (K H) as (t1 & j1 & J1 & M1 & t2 & j2 & J2 & M2). split; eauto.
  - intros H. destruct X2 as [(-> & -> & _)|(X2 & _)]; auto. apply S in X2 as (t & j & H1 & (_ & H2 & _)). lia.
Qed.

(** If all columns are looked at, and the range is finite: every value [x] becomes [(x - min) / (max - min)] in
    double arithmetic, which is in [0,1], the minimum 0 and the maximum 1, and order is kept; a constant dataset
    becomes 0. *)
Theorem C34_values : forall IO writable (σ : st F64) i d data σ' mn mx d' data',
  dataset F64 σ i d data -> Forall fin64 data -> 1 <= set_len (ds_set F64 d) -> 1 <= set_count (ds_set F64 d) -> parity_ok d ->
  normalized_to IO writable σ i σ' mn mx d' data' -> fin64 (nsub F64 mx mn) ->
  (forall t j x, cell F64 d data t j x -> exists y, cell F64 d' data' t j y /\ fin64 y /\
     (0 <= val y <= 1)%R /\
     (lt F64 mn mx -> y = ndiv F64 (nsub F64 x mn) (nsub F64 mx mn) /\
        (neqb F64 x mn = true -> val y = 0%R) /\ (neqb F64 x mx = true -> val y = 1%R)) /\
     (neqb F64 mn mx = true -> val y = 0%R)) /\
  (forall t j x y t' j' x' y', cell F64 d data t j x -> cell F64 d' data' t j y -> cell F64 d data t' j' x' -> cell F64 d' data' t' j' y' ->
     le F64 x x' -> le F64 y y').
Proof.
  intros IO writable σ i d data σ' mn mx d' data' D F Hl Hc P R Fd.
  destruct (norm_inv IO writable σ i d data D F Hl Hc) as (σ1 & mn1 & mx1 & d1 & data1 & R1 & Hd1 & (X1 & X2) & _ & V & _).
  rewrite (columns_all d P) in X1, X2. cbn [fst snd] in X1, X2.
  assert (E : σ1 = σ' /\ mn1 = mn /\ mx1 = mx /\ d1 = d' /\ data1 = data').
  { destruct R as (R & (C & b & B1 & B2 & _)), R1 as (R1 & (C1 & b1 & B3 & B4 & _)). rewrite R in R1. injection R1 as <- <- <-.
    rewrite C in C1. injection C1 as <-. rewrite B1 in B3. injection B3 as <-. rewrite B2 in B4. injection B4 as <-. auto. }
  destruct E as (-> & -> & -> & -> & ->). clear R1.
  assert (S : forall t j x, cell F64 d data t j x -> fin64 x /\ (val mn <= val x <= val mx)%R).
  { intros t j x (H1 & H2 & H3). apply X1. exists t, j. auto. }
  assert (M : fin64 mn /\ fin64 mx /\ (val mn <= val mx)%R).
  { destruct X2 as [(_ & _ & Nn)|((t1 & j1 & A1 & A2 & A3) & (t2 & j2 & B1 & B2 & B3))].
    - exfalso. destruct D as (_ & b & _ & _ & _ & Hz). destruct (zget_Ok data (0 * set_len (ds_set F64 d) + 0)) as (x & Hx); [nia|].
      apply (Nn x). exists 0, 0. repeat split; try lia. exact Hx.
    - destruct (S t1 j1 mn) as (Fn & Y); [repeat split; auto; lia|]. destruct (S t2 j2 mx) as (Fm & _); [repeat split; auto; lia|].
      split; auto. split; auto. lra. }
  destruct M as (Fn & Fm & Hle). change (nsub F64 mx mn) with (sub64 mx mn) in *.
  assert (U : forall t j (x : num F64) y y', cell F64 d' data' t j y -> cell F64 d' data' t j y' -> y = y').
  { intros t j _ y y' (_ & _ & Hy) (_ & _ & Hy'). rewrite Hy in Hy'. now injection Hy'. }
  assert (Z0 : fin64 (S754_zero false)) by (split; [reflexivity|exact I]).
  destruct (Req_dec (val mn) (val mx)) as [Heq|Hne].
  - (* constant *)
    assert (Dz : SFeqb (sub64 mx mn) (S754_zero false) = true).
    { apply eqb_true; auto using fin_ok. destruct (sub_rnd mx mn Fm Fn) as (_ & Vd). unfold sub64. rewrite Vd, Heq, Rminus_diag_eq, rnd_0 by auto.
      cbn [val]. apply clip_id. pose proof BIG_gt0. lra. }
    assert (Y : forall t j x, cell F64 d data t j x -> exists y, cell F64 d' data' t j y /\ fin64 y /\ val y = 0%R).
    { intros t j x Hx. exists (norm_fun mn mx x). split; [now apply V|]. unfold norm_fun. rewrite Dz. destruct (S t j x Hx) as (Fx & Bx).
      destruct (SFeqb mx (S754_zero false)) eqn:Em; [|auto]. apply eqb_true in Em; auto using fin_ok. cbn [val] in Em. split; auto. lra. }
    split.
    + intros t j x Hx. destruct (Y t j x Hx) as (y & H1 & H2 & H3). exists y. split; auto. split; auto. split; [lra|]. split; auto.
      intros L. apply ltb_true in L; auto using fin_ok. lra.
    + intros t j x y t' j' x' y' Hx Hy Hx' Hy' _. destruct (Y t j x Hx) as (y1 & H1 & H2 & H3). destruct (Y t' j' x' Hx') as (y2 & H4 & H5 & H6).
      rewrite (U t j x y y1), (U t' j' x y' y2) by auto. apply ltb_false; auto using fin_ok. lra.
  - assert (Hlt : (val mn < val mx)%R) by lra. destruct (diff_val mn mx Fn Fm Hlt Fd) as (_ & Dp).
    assert (Dz : SFeqb (sub64 mx mn) (S754_zero false) = false).
    { destruct (SFeqb _ _) eqn:B; auto. apply eqb_true in B; auto using fin_ok. cbn [val] in B. lra. }
    assert (Y : forall t j x, cell F64 d data t j x -> cell F64 d' data' t j (scale mn mx x)).
    { intros t j x Hx. apply V in Hx. unfold norm_fun in Hx. now rewrite Dz in Hx. }
    split.
    + intros t j x Hx. exists (scale mn mx x). destruct (S t j x Hx) as (Fx & Bx). destruct (scale_val mn mx Fn Fm Hlt Fd x Fx Bx) as (Fy & _ & By).
      split; auto. split; auto. split; auto. split.
      * intros _. split; [reflexivity|]. split; intros E; apply eqb_true in E; auto using fin_ok; [now apply scale_min|now apply scale_max].
      * intros E. apply eqb_true in E; auto using fin_ok. lra.
    + intros t j x y t' j' x' y' Hx Hy Hx' Hy' L. rewrite (U t j x y _ Hy (Y _ _ _ Hx)), (U t' j' x y' _ Hy' (Y _ _ _ Hx')).
      destruct (S _ _ _ Hx) as (Fx & Bx), (S _ _ _ Hx') as (Fx' & Bx'). apply ltb_false in L; auto using fin_ok.
      apply ltb_false; [apply fin_ok, scale_val; auto|apply fin_ok, scale_val; auto|]. apply scale_mono; auto; lra.
Qed.

Lemma cell_ex (σ : st F64) i d (data : list (num F64)) t j : dataset F64 σ i d data -> 0 <= t < set_count (ds_set F64 d) -> 0 <= j < set_len (ds_set F64 d) ->
  exists x, cell F64 d data t j x.
Proof.
  intros (_ & b & _ & _ & _ & Hz) Ht Hj. destruct (zget_Ok data (t * set_len (ds_set F64 d) + j)) as (x & Hx); [nia|]. exists x. split; [lia|]. split; [lia|exact Hx].
Qed.

(** ** C35: normalizing again changes no value (a zero may lose its sign). *)
Theorem C35_idempotent : forall IO writable (σ : st F64) i d data σ1 mn mx d1 data1,
  dataset F64 σ i d data -> Forall fin64 data -> 1 <= set_len (ds_set F64 d) -> 1 <= set_count (ds_set F64 d) -> parity_ok d ->
  normalized_to IO writable σ i σ1 mn mx d1 data1 -> fin64 (nsub F64 mx mn) ->
  exists σ2 mn2 mx2 d2 data2, normalized_to IO writable σ1 i σ2 mn2 mx2 d2 data2 /\
    (lt F64 mn mx -> val mn2 = 0%R /\ val mx2 = 1%R) /\ (neqb F64 mn mx = true -> val mn2 = 0%R /\ val mx2 = 0%R) /\
    forall t j y, cell F64 d1 data1 t j y -> exists z, cell F64 d2 data2 t j z /\ neqb F64 z y = true /\ (neqb F64 y (nzero F64) = false -> z = y).
Proof.
  intros IO writable σ i d data σ1 mn mx d1 data1 D F Hl Hc P R Fd.
  destruct (C34_values IO writable σ i d data σ1 mn mx d1 data1 D F Hl Hc P R Fd) as (V1 & _).
  destruct (norm_inv IO writable σ i d data D F Hl Hc) as (σ1' & mn1 & mx1 & d1' & data1' & R1 & Hd1 & (X1 & X2) & Zl & _ & W).
  rewrite (columns_all d P) in X1, X2. cbn [fst snd] in X1, X2.
  assert (E : σ1' = σ1 /\ mn1 = mn /\ mx1 = mx /\ d1' = d1 /\ data1' = data1).
  { destruct R as (R & (C & b & B1 & B2 & _)), R1 as (R1 & (C1 & b1 & B3 & B4 & _)). rewrite R in R1. injection R1 as <- <- <-.
    rewrite C in C1. injection C1 as <-. rewrite B1 in B3. injection B3 as <-. rewrite B2 in B4. injection B4 as <-. auto. }
  destruct E as (-> & -> & -> & -> & ->). clear R1.
  assert (Sc : set_count (ds_set F64 d1) = set_count (ds_set F64 d)) by (rewrite Hd1; reflexivity).
  assert (Sl : set_len (ds_set F64 d1) = set_len (ds_set F64 d)) by (rewrite Hd1; reflexivity). clear Hd1.
  assert (D1 : dataset F64 σ1 i d1 data1) by apply R.
  assert (P1 : parity_ok d1) by (unfold parity_ok; rewrite Sc, Sl; exact P).
  assert (C1 : forall t j y, cell F64 d1 data1 t j y -> exists x, cell F64 d data t j x).
  { intros t j y (H1 & H2 & _). apply (cell_ex σ i d data); auto; lia. }
  assert (U : forall dd (dt : list (num F64)) t j y y', cell F64 dd dt t j y -> cell F64 dd dt t j y' -> y = y').
  { intros dd dt t j y y' (_ & _ & Hy) (_ & _ & Hy'). rewrite Hy in Hy'. now injection Hy'. }
  assert (F1 : Forall fin64 data1).
  { apply Forall_forall. intros y Hy.
    assert (exists k, zget data1 (Z.of_nat k) = Ok y) as (k & K).
    { clear - Hy. induction data1 as [|a l IH]; [destruct Hy|]. destruct Hy as [->|Hy]; [exists O; reflexivity|].
      destruct (IH Hy) as (k & K). exists (S k). unfold zget in *. destruct (Z.ltb_spec (Z.of_nat k) 0); [lia|]. destruct (Z.ltb_spec (Z.of_nat (S k)) 0); [lia|].
      rewrite Nat2Z.id in *. exact K. }
    destruct (Z_lt_le_dec (Z.of_nat k) (set_count (ds_set F64 d) * set_len (ds_set F64 d))) as [Hlt|Hge].
    - pose proof (Z.div_mod (Z.of_nat k) (set_len (ds_set F64 d)) ltac:(lia)) as Dm.
      pose proof (Z.mod_pos_bound (Z.of_nat k) (set_len (ds_set F64 d)) ltac:(lia)) as Mb.
      set (t := Z.of_nat k / set_len (ds_set F64 d)) in *. set (j := Z.of_nat k mod set_len (ds_set F64 d)) in *.
      assert (Cy : cell F64 d1 data1 t j y).
      { split; [rewrite Sc; nia|]. split; [lia|]. rewrite Sl. replace (t * set_len (ds_set F64 d) + j) with (Z.of_nat k) by lia. exact K. }
      destruct (C1 _ _ _ Cy) as (x & Cx). destruct (V1 _ _ _ Cx) as (y' & Cy' & Fy' & _). rewrite (U _ _ _ _ _ _ Cy Cy'). exact Fy'.
    - rewrite W in K by exact Hge. apply zget_in in K. rewrite Forall_forall in F. exact (F _ K). }
  destruct (norm_inv IO writable σ1 i d1 data1 D1 F1 ltac:(lia) ltac:(lia)) as (σ2 & mn2 & mx2 & d2 & data2 & R2 & Hd2 & (Y1 & Y2) & Zl2 & V2 & _).
  rewrite (columns_all d1 P1) in Y1, Y2. cbn [fst snd] in Y1, Y2.
  exists σ2, mn2, mx2, d2, data2. split; [exact R2|].
  assert (G : forall t j y, cell F64 d1 data1 t j y -> fin64 y /\ (val mn2 <= val y <= val mx2)%R).
  { intros t j y (H1 & H2 & H3). apply Y1. exists t, j. auto. }
  assert (M1 : exists t j t' j', cell F64 d data t j mn /\ cell F64 d data t' j' mx).
  { destruct X2 as [(_ & _ & Nn)|((t1 & j1 & A1 & A2 & A3) & (t2 & j2 & B1 & B2 & B3))].
    - exfalso. destruct (cell_ex σ i d data 0 0 D ltac:(lia) ltac:(lia)) as (x & Hx). apply (Nn x). exists 0, 0. exact Hx.
    - exists t1, j1, t2, j2. split; repeat split; auto; lia. }
  assert (M2 : exists t j t' j', cell F64 d1 data1 t j mn2 /\ cell F64 d1 data1 t' j' mx2).
  { destruct Y2 as [(_ & _ & Nn)|((t1 & j1 & A1 & A2 & A3) & (t2 & j2 & B1 & B2 & B3))].
    - exfalso. destruct (cell_ex σ1 i d1 data1 0 0 D1 ltac:(lia) ltac:(lia)) as (x & Hx). apply (Nn x). exists 0, 0. exact Hx.
    - exists t1, j1, t2, j2. split; repeat split; auto; lia. }
  destruct M1 as (t1 & j1 & t2 & j2 & Cn & Cm), M2 as (t3 & j3 & t4 & j4 & Cn2 & Cm2).
  assert (Fn : fin64 mn) by (destruct Cn as (? & ? & ?); apply X1; exists t1, j1; auto).
  assert (Fm : fin64 mx) by (destruct Cm as (? & ? & ?); apply X1; exists t2, j2; auto).
  assert (Fn2 : fin64 mn2) by (eapply G; eauto). assert (Fm2 : fin64 mx2) by (eapply G; eauto).
  assert (Hle : (val mn <= val mx)%R) by (destruct Cn as (? & ? & ?); apply X1; exists t1, j1; auto).
  destruct (C1 _ _ _ Cn2) as (xn & Cxn). destruct (C1 _ _ _ Cm2) as (xm & Cxm).
  destruct (V1 _ _ _ Cxn) as (yn & Cyn & _ & Bn & _ & Zn). destruct (V1 _ _ _ Cxm) as (ym & Cym & _ & Bm & _ & Zm).
  rewrite <- (U _ _ _ _ _ _ Cn2 Cyn) in Bn, Zn. rewrite <- (U _ _ _ _ _ _ Cm2 Cym) in Bm, Zm. clear Cyn Cym yn ym.
  assert (Z0 : fin64 (S754_zero false)) by (split; [reflexivity|exact I]).
  destruct (Req_dec (val mn) (val mx)) as [Heq|Hne].
  - assert (Eq : neqb F64 mn mx = true) by (apply eqb_true; auto using fin_ok).
    specialize (Zn Eq). specialize (Zm Eq).
    split; [intros L; apply ltb_true in L; auto using fin_ok; lra|]. split; [auto|].
    intros t j y Cy. exists y. assert (Fy : fin64 y) by (eapply G; eauto). split; [|split; auto; apply eqb_true; auto using fin_ok].
    apply V2 in Cy. unfold norm_fun in Cy.
    assert (Dz : SFeqb (sub64 mx2 mn2) (S754_zero false) = true).
    { destruct (sub_rnd mx2 mn2 Fm2 Fn2) as (O & Vd). fold sub64 in O, Vd. apply eqb_true; auto using fin_ok. rewrite Vd, Zn, Zm, Rminus_0_r, rnd_0.
      cbn [val]. apply clip_id. pose proof BIG_gt0. lra. }
    assert (Mz : SFeqb mx2 (S754_zero false) = true) by (apply eqb_true; auto using fin_ok). rewrite Dz, Mz in Cy. exact Cy.
  - assert (L : lt F64 mn mx) by (apply ltb_true; auto using fin_ok; lra).
    destruct (V1 _ _ _ Cn) as (y0 & Cy0 & Fy0 & _ & S0 & _). destruct (S0 L) as (_ & E0 & _).
    destruct (V1 _ _ _ Cm) as (y1 & Cy1 & Fy1 & _ & S1 & _). destruct (S1 L) as (_ & _ & E1).
    rewrite (fun H => E0 H) in E0 by (apply eqb_true; auto using fin_ok).
    assert (Q0 : val y0 = 0%R). { apply S0; auto. apply eqb_true; auto using fin_ok. } clear E0.
    assert (Q1 : val y1 = 1%R). { apply S1; auto. apply eqb_true; auto using fin_ok. } clear E1.
    destruct (G _ _ _ Cy0) as (_ & G0). destruct (G _ _ _ Cy1) as (_ & G1).
    assert (Vn : val mn2 = 0%R) by lra. assert (Vm : val mx2 = 1%R) by lra.
    split; [auto|]. split; [intros Eq; apply eqb_true in Eq; auto using fin_ok; lra|].
    intros t j y Cy. destruct (G _ _ _ Cy) as (Fy & By). exists (scale mn2 mx2 y).
    destruct (scale_again mn2 mx2 y Fn2 Fm2 Fy Vn Vm ltac:(lra)) as (Fs & Vs).
    split; [|split; [apply eqb_true; auto using fin_ok|]].
    + apply V2 in Cy. unfold norm_fun in Cy. 
      assert (Dz : SFeqb (sub64 mx2 mn2) (S754_zero false) = false).
      { destruct (SFeqb _ _) eqn:B; auto. destruct (sub_rnd mx2 mn2 Fm2 Fn2) as (O & Vd). fold sub64 in O, Vd.
        apply eqb_true in B; auto using fin_ok. cbn [val] in B. rewrite Vd, Vn, Vm, Rminus_0_r, (rnd_id 1 format1) in B.
        assert (HB : (2 <= BIG)%R) by (change 2%R with (Flocq.Core.Raux.bpow Flocq.Core.Zaux.radix2 1); apply Flocq.Core.Raux.bpow_le; lia).
        rewrite clip_id in B; lra. }
      rewrite Dz in Cy. exact Cy.
    + intros Nz. apply val_inj_nz; auto. intros Q. assert (neqb F64 y (nzero F64) = true); [|congruence]. apply eqb_true; auto using fin_ok.
      change (val y = 0%R). rewrite <- Vs. exact Q.
Qed.

(** ** Cases. *)
(** Dataset [i] of [σ] with its values, computed. *)
Definition look (σ : st F64) (i : Z) : option (dset F64 * list spec_float) :=
  match checkDatasetIndex F64 σ i with
  | Ok d => match set_data F64 (st_heap F64 σ) (ds_set F64 d) with
            | Ok l => if (0 <=? set_count (ds_set F64 d)) && (set_count (ds_set F64 d) * set_len (ds_set F64 d) <=? zlen l) then Some (d, l) else None
            | _ => None end
  | _ => None end.
Lemma look_spec σ i d l : look σ i = Some (d, l) -> dataset F64 σ i d l.
Proof.
  unfold look, set_data. destruct (checkDatasetIndex F64 σ i) as [d'| | |] eqn:C; try discriminate. destruct (set_buf (ds_set F64 d')) as [b|] eqn:B; [|discriminate].
  destruct (heap_get F64 (st_heap F64 σ) b) as [l'| | |] eqn:H; try discriminate. destruct (_ && _) eqn:K; [|discriminate]. injection 1 as -> ->.
  apply andb_prop in K as (K1 & K2). split; auto. exists b. repeat split; auto; lia.
Qed.
Definition fin64b (x : spec_float) : bool := is_f64 x && match x with S754_zero _ | S754_finite _ _ _ => true | _ => false end.
Lemma fin64b_spec x : fin64b x = true -> fin64 x.
Proof. unfold fin64b. intros H. apply andb_prop in H as (H1 & H2). split; auto. destruct x; auto; discriminate. Qed.
Definition ex_norm_files (p : string) : option text :=
  if String.eqb p "a" then Some (ex_line "1 2 3" ++ ex_line "4 5 6")
  else if String.eqb p "b" then Some (ex_line "1 2" ++ ex_line "-5 6" ++ ex_line "9 0.1") else Some (ex_line "3 3").
(** A run, the first dataset before and after normalization, the extremes. *)
Definition ex_norm (p : string) : option (dset F64 * list spec_float * spec_float * spec_float * (dset F64 * list spec_float) * option (list spec_float)) :=
  match run F64 F64_IO (fun _ => true) (st_init F64 ex_norm_files) [OpLoad F64 p 0 0 (T_ " ")] with
  | Some σ => match look σ 0, step F64 F64_IO (fun _ => true) σ (OpNormalize F64 0) with
              | Some (d, l), Done _ σ' (VPair _ mn mx) => match look σ' 0 with
                | Some d' => Some (d, l, mn, mx, d', match step F64 F64_IO (fun _ => true) σ (OpPAA F64 0 2) with
                                                    | Done _ σ2 _ => match look σ2 0 with Some (_, l2) => Some l2 | None => None end | _ => None end)
                | None => None end
              | _, _ => None end
  | None => None end.
Definition ex_norm_ok (p : string) : bool :=
  match ex_norm p with
  | Some (d, l, mn, mx, (d', l'), _) => forallb fin64b l && (1 <=? set_len (ds_set F64 d)) && (1 <=? set_count (ds_set F64 d)) &&
      (Z.even (set_len (ds_set F64 d)) || Z.odd (set_count (ds_set F64 d))) && fin64b (nsub F64 mx mn)
  | None => false end.
Lemma ex_norm_spec p : ex_norm_ok p = true -> exists σ d data σ' mn mx d' data',
  reachable F64 F64_IO (fun _ => true) σ /\ dataset F64 σ 0 d data /\ Forall fin64 data /\ 1 <= set_len (ds_set F64 d) /\ 1 <= set_count (ds_set F64 d) /\
  parity_ok d /\ normalized_to F64_IO (fun _ => true) σ 0 σ' mn mx d' data' /\ fin64 (nsub F64 mx mn).
Proof.
  unfold ex_norm_ok, ex_norm. destruct (run _ _ _ _ _) as [σ|] eqn:E; [|discriminate]. destruct (look σ 0) as [[d l]|] eqn:L; [|discriminate].
  destruct (step F64 F64_IO _ σ (OpNormalize F64 0)) as [σ' v| | |] eqn:S; try discriminate. destruct v as [| | | |mn mx|]; try discriminate.
  destruct (look σ' 0) as [[d' l']|] eqn:L'; [|discriminate]. intros H. repeat (apply andb_prop in H as (H & ?)).
  exists σ, d, l, σ', mn, mx, d', l'. split; [eexists _, _; exact E|]. split; [now apply look_spec|].
  split; [apply Forall_forall; intros x Hx; apply fin64b_spec; eapply forallb_forall in H; eauto|]. split; [lia|]. split; [lia|].
  split; [unfold parity_ok; now apply orb_prop|]. split; [split; [exact S|now apply look_spec]|]. now apply fin64b_spec.
Qed.
Example C34_C35_case : ex_norm_ok "b" = true /\ ex_norm_ok "c" = true.
Proof. vm_compute. auto. Qed.
(** 1 2 / -5 6 / 9 0.1 : extremes -5 and 9. *)
Example C34_case_values : match ex_norm "b" with
  | Some (_, l, mn, mx, (_, l'), _) => (mn, mx) = (f64_ofZ (-5), f64_ofZ 9) /\ nth 2 l' S754_nan = S754_zero false /\ nth 4 l' S754_nan = f64_ofZ 1
  | None => False end.
Proof. vm_compute. auto. Qed.
(** C32: blocks of two of 1 2 3 / 4 5 6: the last block has one value. *)
Example C32_case : match ex_norm "a" with
  | Some (_, l, _, _, _, Some l2) => l = map f64_ofZ [1; 2; 3; 4; 5; 6] /\
      l2 = [SFdiv prec64 emax64 (f64_ofZ 3) (f64_ofZ 2); f64_ofZ 3; SFdiv prec64 emax64 (f64_ofZ 9) (f64_ofZ 2); f64_ofZ 6]
  | _ => False end.
Proof. vm_compute. auto. Qed.
(** C34: two series of length 3 (odd length, even count): the last column is not looked at and its values leave
    [0,1]. *)
Theorem C34_outside_witness : exists IO writable (σ : st F64) d data σ' mn mx d' data', reachable F64 IO writable σ /\
  dataset F64 σ 0 d data /\ Forall fin64 data /\ set_len (ds_set F64 d) = 3 /\ set_count (ds_set F64 d) = 2 /\
  normalized_to IO writable σ 0 σ' mn mx d' data' /\ (exists t j x, cell F64 d data t j x /\ lt F64 mx x) /\
  exists t j y, cell F64 d' data' t j y /\ lt F64 (nofZ F64 1) y.
Proof.
  assert (H : match ex_norm "a" with
    | Some (d, l, mn, mx, (d', l'), _) => forallb fin64b l && (set_len (ds_set F64 d) =? 3) && (set_count (ds_set F64 d) =? 2) &&
        (set_len (ds_set F64 d') =? 3) && (set_count (ds_set F64 d') =? 2) &&
        match nth_error l 5, nth_error l' 5 with Some x, Some y => SFltb mx x && SFltb (f64_ofZ 1) y | _, _ => false end
    | None => false end = true) by (vm_compute; reflexivity).
  unfold ex_norm in H. destruct (run _ _ _ _ _) as [σ|] eqn:E; [|discriminate]. destruct (look σ 0) as [[d l]|] eqn:L; [|discriminate].
  destruct (step F64 F64_IO _ σ (OpNormalize F64 0)) as [σ' v| | |] eqn:S; try discriminate. destruct v as [| | | |mn mx|]; try discriminate.
  destruct (look σ' 0) as [[d' l']|] eqn:L'; [|discriminate]. repeat (apply andb_prop in H as (H & ?)).
  destruct (nth_error l 5) as [x|] eqn:X; [|discriminate]. destruct (nth_error l' 5) as [y|] eqn:Y; [|discriminate].
  apply andb_prop in H0 as (H0 & H5).
  exists F64_IO, (fun _ => true), σ, d, l, σ', mn, mx, d', l'. split; [eexists _, _; exact E|]. split; [now apply look_spec|].
  split; [apply Forall_forall; intros z Hz; apply fin64b_spec; eapply forallb_forall in H; eauto|]. split; [lia|]. split; [lia|].
  split; [split; [exact S|now apply look_spec]|]. assert (Hd' : set_len (ds_set F64 d') = 3) by lia. assert (Hd : set_len (ds_set F64 d) = 3) by lia.
  split; [exists 1, 2, x|exists 1, 2, y]; (split; [split; [lia|]; split; [lia|]|assumption]); rewrite ?Hd, ?Hd'; cbn [Z.mul Z.add Pos.add Pos.mul]; unfold zget;
   [change (Z.to_nat 5) with 5%nat; change (5 <? 0) with false|change (Z.to_nat 5) with 5%nat; change (5 <? 0) with false]; cbv iota.
  - change (nth_error l 5) with (@nth_error spec_float l 5). rewrite X. reflexivity.
  - change (num F64) with spec_float. rewrite Y. reflexivity.
Qed.
