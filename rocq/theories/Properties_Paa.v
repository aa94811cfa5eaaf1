(** * Property C66: what PAA keeps. *)
From Coq Require Import ZArith Bool Reals Lra Lia SpecFloat String List.
From Flocq Require Import Core.
From Verif Require Import Outcome Num RX Lemire Distance TimeSeries Text Dataset Groups Api GroupSpec Laws F64Base RXLaws F64Laws Spec DtwProofs SafeDist Numeric Metric.
From Verif Require Import DataProofs GroupProofs SessionProofs GroupFacts Properties_Access Properties_Data Properties_Groups Properties_Api PaaProofs.
Import ListNotations.
Open Scope Z_scope.

Section Exact.
Context (IO : NumIO RX) (writable : string -> bool) (σ : st RX) (i : Z) (d : dset RX) (data : list (num RX)).
Local Notation len := (set_len (ds_set RX d)).
Local Notation count := (set_count (ds_set RX d)).
(** Dataset [i] has the finite values [data]. *)
Definition exact_data : Prop := dataset RX σ i d data /\ Forall dat_rx data /\ 1 <= len <= 2 ^ 30.

Lemma paa_blocks n : exact_data -> 1 <= n -> exists σ' v d' data',
  step RX IO writable σ (OpPAA RX i n) = Done RX σ' v /\ dataset RX σ' i d' data' /\
  set_count (ds_set RX d') = count /\ set_len (ds_set RX d') = (len + n - 1) / n /\
  (forall t s L, 0 <= t < count -> 0 <= s -> 0 <= L -> n * (s + L) <= len ->
     block_means data data' n (t * len + n * s) (t * set_len (ds_set RX d') + s) L) /\
  (forall t k, 0 <= t < count -> 0 <= k < set_len (ds_set RX d') ->
      cell RX d' data' t k (mean RX (zslice data (t * len + k * n) (Z.min n (len - k * n))))).
Proof.
  intros (D & _ & Hl) Hn. destruct (C32_PAA RX IO writable σ i n d data D Hn ltac:(lia)) as (σ' & d' & data' & E & D' & C & L' & _ & _ & _ & _ & V).
  exists σ'. eexists. exists d', data'. split; [exact E|]. split; auto. split; auto. split; auto. split.
  - intros t s L Ht Hs HL Hlen k Hk. assert (K : s + k < (len + n - 1) / n).
    { apply Z.lt_le_trans with (s + k + 1); [lia|]. apply Z.div_le_lower_bound; nia. }
    destruct (V t (s + k) Ht ltac:(lia)) as (_ & _ & G). rewrite Z.min_l in G by nia.
    change (num RX) with rx in *. rewrite <- Z.add_assoc. etransitivity; [exact G|]. f_equal. f_equal. f_equal. lia.
  - rewrite L'. exact V.
Qed.

(** The pairwise distance of two subsequences is not larger than that of the subsequences they are made
    of; [s] and [s'] are positions after PAA, [n * s] and [n * s'] before. *)
Theorem C66_distance_exact : forall n, exact_data -> 1 <= n -> exists σ' v d' data',
  step RX IO writable σ (OpPAA RX i n) = Done RX σ' v /\ dataset RX σ' i d' data' /\
  forall L t s t' s', 1 <= L -> 0 <= t < count -> 0 <= s -> n * (s + L) <= len -> 0 <= t' < count -> 0 <= s' -> n * (s' + L) <= len ->
  exists x x' : R,
    dist_is RX (sub_values RX data len (n * L) (t, n * s)) (sub_values RX data len (n * L) (t', n * s')) (Fin x) /\
    dist_is RX (sub_values RX data' (set_len (ds_set RX d')) L (t, s)) (sub_values RX data' (set_len (ds_set RX d')) L (t', s')) (Fin x') /\
    (x' <= x)%R.
Proof.
  intros n HD Hn. destruct (paa_blocks n HD Hn) as (σ' & v & d' & data' & E & D' & C & L' & V & _).
  exists σ', v, d', data'. split; auto. split; auto. intros L t s t' s' HL Ht Hs Hl Ht' Hs' Hl'.
  destruct HD as ((_ & b & _ & _ & _ & Hz) & Hd & Hlen). change (num RX) with rx in *.
  assert (P' : 0 <= set_len (ds_set RX d')) by (rewrite L'; apply Z.div_pos; lia).
  destruct (blocks_ssq data data' n (t * len + n * s) (t * set_len (ds_set RX d') + s) (t' * len + n * s') (t' * set_len (ds_set RX d') + s')
    Hd Hn ltac:(nia) ltac:(nia) ltac:(nia) ltac:(nia) L ltac:(lia)) as (D1 & D2 & Z1 & Z2 & I); try nia.
  { apply V; auto; lia. } { apply V; auto; lia. }
  unfold sub_values. cbn [fst snd].
  assert (Y1 : zlen (zslice data (t * len + n * s) (n * L)) = n * L) by (apply slice_len; nia).
  assert (Y2 : zlen (zslice data (t' * len + n * s') (n * L)) = n * L) by (apply slice_len; nia).
  assert (F1 : Forall dat_rx (zslice data (t * len + n * s) (n * L))) by now apply slice_dat.
  assert (F2 : Forall dat_rx (zslice data (t' * len + n * s') (n * L))) by now apply slice_dat.
  pose proof (pairwise_rx (map rv (zslice data (t * len + n * s) (n * L))) (map rv (zslice data (t' * len + n * s') (n * L)))) as A.
  pose proof (pairwise_rx (map rv (zslice data' (t * set_len (ds_set RX d') + s) L)) (map rv (zslice data' (t' * set_len (ds_set RX d') + s') L))) as B.
  rewrite !zlen_map, !Fin_rv in A, B by auto. rewrite Y1, Y2 in A. rewrite Z1, Z2 in B. eexists _, _.
  split; [apply A; nia|]. split; [apply B; nia|]. apply sqrt_le_1_alt. rewrite mult_IZR.
  assert (Pn : (1 <= IZR n)%R) by (apply IZR_le; lia). assert (PL : (1 <= IZR L)%R) by (apply IZR_le; lia).
  apply Rmult_le_reg_r with (IZR n * IZR L)%R; [nra|]. unfold Rdiv. rewrite !Rmult_assoc, Rinv_l by nra.
  rewrite (Rmult_comm (IZR n) (IZR L)), <- (Rmult_assoc (/ IZR L)), Rinv_l by lra. lra.
Qed.

(** Reducing by [n] and then by [m] is reducing by [n * m], and keeps the mean of every series, if the length is
    a multiple of [n]. *)
Theorem C66_mean_kept_exact : forall n, exact_data -> 1 <= n -> (n | len) -> exists σ' v d' data',
  step RX IO writable σ (OpPAA RX i n) = Done RX σ' v /\ dataset RX σ' i d' data' /\
  set_len (ds_set RX d') * n = len /\
  forall t, 0 <= t < count ->
    mean RX (sub_values RX data' (set_len (ds_set RX d')) (set_len (ds_set RX d')) (t, 0)) = mean RX (sub_values RX data len len (t, 0)).
Proof.
  intros n HD Hn (q & Hq). destruct (paa_blocks n HD Hn) as (σ' & v & d' & data' & E & D' & C & L' & V & _).
  exists σ', v, d', data'. split; auto. split; auto.
  destruct HD as ((_ & b & _ & _ & _ & Hz) & Hd & Hlen). change (num RX) with rx in *.
  assert (Q : set_len (ds_set RX d') = q).
  { rewrite L'. symmetry. apply Z.div_unique with (n - 1); [left|]; lia. }
  rewrite Q. split; auto. intros t Ht. unfold sub_values. cbn [fst snd].
  etransitivity; [apply (blocks_mean data data' n (t * len + n * 0) (t * q + 0) q Hd Hn)|]; try nia.
  - rewrite <- Q. apply V; nia.
  - rewrite Z.mul_0_r. replace (n * q) with len by lia. reflexivity.
Qed.
End Exact.
Theorem C66_compose_exact : forall IO writable (σ : st RX) i d data n m, exact_data σ i d data -> 1 <= n -> 1 <= m -> (n | set_len (ds_set RX d)) ->
  exists σ1 v1 σ2 v2 d2 data2 σ3 v3 d3 data3,
    step RX IO writable σ (OpPAA RX i n) = Done RX σ1 v1 /\
    step RX IO writable σ1 (OpPAA RX i m) = Done RX σ2 v2 /\ dataset RX σ2 i d2 data2 /\
    step RX IO writable σ (OpPAA RX i (n * m)) = Done RX σ3 v3 /\ dataset RX σ3 i d3 data3 /\
    set_count (ds_set RX d2) = set_count (ds_set RX d3) /\ set_len (ds_set RX d2) = set_len (ds_set RX d3) /\
    forall t k x, cell RX d2 data2 t k x <-> cell RX d3 data3 t k x.
Proof.
  intros IO writable σ i d data n m HD Hn Hm (q & Hq).
  destruct (paa_blocks IO writable σ i d data n HD Hn) as (σ1 & v1 & d1 & data1 & E1 & D1 & C1 & L1 & V1 & _).
  destruct (paa_blocks IO writable σ i d data (n * m) HD ltac:(nia)) as (σ3 & v3 & d3 & data3 & E3 & D3 & C3 & L3 & _ & V3).
  destruct HD as ((_ & b & _ & _ & _ & Hz) & Hd & Hlen).
  assert (Q : set_len (ds_set RX d1) = q).
  { rewrite L1. symmetry. apply Z.div_unique with (n - 1); [left|]; lia. }
  destruct (C32_PAA RX IO writable σ1 i m d1 data1 D1 Hm ltac:(nia)) as (σ2 & d2 & data2 & E2 & D2 & C2 & L2 & _ & _ & _ & _ & V2).
  assert (EL : set_len (ds_set RX d2) = set_len (ds_set RX d3)).
  { rewrite L2, L3, Q, Hq. replace (q * n + n * m - 1) with ((q + m - 1) * n + (n - 1)) by ring.
    rewrite <- Z.div_div by lia. rewrite Z.div_add_l by lia. rewrite (Z.div_small (n - 1)) by lia. now rewrite Z.add_0_r. }
  exists σ1, v1, σ2. eexists. exists d2, data2, σ3, v3, d3, data3. split; [exact E1|]. split; [exact E2|]. do 3 (split; [assumption|]).
  split; [congruence|]. split; [exact EL|]. change (num RX) with rx in *.
  assert (G : forall t k, 0 <= t < set_count (ds_set RX d) -> 0 <= k < set_len (ds_set RX d3) -> exists y, cell RX d2 data2 t k y /\ cell RX d3 data3 t k y).
  { intros t k Ht Hk. pose proof (V3 t k Ht Hk) as G3. rewrite <- EL, L2 in Hk. pose proof (V2 t k ltac:(lia) Hk) as G2.
    assert (Hkm : k * m < q).
    { rewrite Q in Hk. pose proof (Z.mul_div_le (q + m - 1) m ltac:(lia)). nia. }
    eexists. split; [exact G2|]. rewrite Q.
    assert (M : mean RX (zslice data1 (t * q + k * m) (Z.min m (q - k * m))) =
      mean RX (zslice data (t * set_len (ds_set RX d) + n * (k * m)) (n * Z.min m (q - k * m)))).
    { apply (blocks_mean data data1 n (t * set_len (ds_set RX d) + n * (k * m)) (t * q + k * m) (Z.min m (q - k * m)) Hd Hn); try nia.
      rewrite <- Q. apply V1; nia. }
    change (num RX) with rx in *. rewrite M.
    replace (n * Z.min m (q - k * m)) with (Z.min (n * m) (set_len (ds_set RX d) - k * (n * m))) by nia.
    replace (n * (k * m)) with (k * (n * m)) by ring. exact G3. }
  intros t k x. split; intros (H1 & H2 & H3).
  - destruct (G t k ltac:(lia) ltac:(lia)) as (y & (_ & _ & Y2) & (A & B & Y3)). rewrite Y2 in H3. injection H3 as <-. split; auto.
  - destruct (G t k ltac:(lia) ltac:(lia)) as (y & (A & B & Y2) & (_ & _ & Y3)). rewrite Y3 in H3. injection H3 as <-. split; auto.
Qed.

(** ** Doubles: values in [0,1] stay there; in particular those of a normalized dataset. *)
Definition in_unit (d : dset F64) (data : list (num F64)) : Prop :=
  forall t j x, cell F64 d data t j x -> fin64 x /\ (0 <= val x <= 1)%R.
Theorem C66_range : forall IO writable (σ : st F64) i d data n,
  dataset F64 σ i d data -> 1 <= set_len (ds_set F64 d) <= 2 ^ 53 -> in_unit d data -> 1 <= n ->
  exists σ' v d' data', step F64 IO writable σ (OpPAA F64 i n) = Done F64 σ' v /\ dataset F64 σ' i d' data' /\ in_unit d' data'.
Proof.
  intros IO writable σ i d data n D Hl U Hn. pose proof D as (_ & b & _ & _ & Hc & Hz).
  destruct (C32_PAA F64 IO writable σ i n d data D Hn ltac:(lia)) as (σ' & d' & data' & E & D' & C & L' & _ & _ & _ & _ & V).
  exists σ'. eexists. exists d', data'. split; [exact E|]. split; auto.
  intros t k x (H1 & H2 & H3). rewrite C in H1. rewrite L' in H2, H3. destruct (V t k H1 H2) as (_ & _ & G). rewrite L', H3 in G. injection G as ->.
  change (num F64) with spec_float in *.
  assert (Hk : k * n < set_len (ds_set F64 d)).
  { pose proof (Z.mul_div_le (set_len (ds_set F64 d) + n - 1) n ltac:(lia)). nia. }
  assert (K : zlen (zslice data (t * set_len (ds_set F64 d) + k * n) (Z.min n (set_len (ds_set F64 d) - k * n))) = Z.min n (set_len (ds_set F64 d) - k * n))
    by (apply slice_len; nia).
  apply mean_range; [|rewrite K; lia]. apply Forall_forall. intros x Hx. apply in_zget in Hx as (j & Hj & G). rewrite K in Hj.
  rewrite zget_slice in G by nia. rewrite <- Z.add_assoc in G. apply (U t (k * n + j)). split; auto. split; [nia|auto].
Qed.
Theorem C66_normalized_range : forall IO writable (σ : st F64) i d data σ1 mn mx d1 data1 n,
  dataset F64 σ i d data -> Forall fin64 data -> 1 <= set_len (ds_set F64 d) <= 2 ^ 53 -> 1 <= set_count (ds_set F64 d) -> parity_ok d ->
  normalized_to IO writable σ i σ1 mn mx d1 data1 -> fin64 (nsub F64 mx mn) -> 1 <= n ->
  exists σ' v d' data', step F64 IO writable σ1 (OpPAA F64 i n) = Done F64 σ' v /\ dataset F64 σ' i d' data' /\ in_unit d' data'.
Proof.
  intros IO writable σ i d data σ1 mn mx d1 data1 n D F Hl Hc P R Fd Hn.
  destruct (C34_values _ _ _ _ _ _ _ _ _ _ _ D F ltac:(lia) Hc P R Fd) as (V & _).
  destruct (norm_inv IO writable σ i d data D F ltac:(lia) Hc) as (σ2 & mn2 & mx2 & d2 & data2 & (R2 & D2) & Hd2 & _).
  destruct R as (R & D1). rewrite R in R2. injection R2 as <- <- <-.
  assert (Ed : d2 = d1) by (destruct D1 as (A & _); destruct D2 as (B & _); congruence). rewrite Ed in Hd2.
  apply (C66_range IO writable σ1 i d1 data1 n); auto; [rewrite Hd2; auto|].
  intros t j y Hy. pose proof Hy as (H1 & H2 & H3). rewrite Hd2 in H1, H2. cbn [ds_set set_count set_len] in H1, H2.
  destruct D as (_ & b & _ & _ & Hc0 & Hz).
  destruct (zget_Ok data (t * set_len (ds_set F64 d) + j)) as (x & G); [nia|].
  destruct (V t j x) as (y' & (_ & _ & Hy') & Fy & By & _); [split; auto|]. rewrite H3 in Hy'. injection Hy' as <-. auto.
Qed.

(** ** A last block that is shorter has the weight of a full one. *)
Definition paa_files (p : string) : option text :=
  if String.eqb p "a" then Some (ex_line "0 0 1" ++ ex_line "0 0 0")
  else if String.eqb p "b" then Some (ex_line "1 2 3") else Some (ex_line "0.1 0.1 0.1").
(** Load a file, reduce by the block sizes [ns]. *)
Definition paa_run (p : string) (ns : list Z) : option (st F64) :=
  run F64 F64_IO (fun _ => true) (st_init F64 paa_files) (OpLoad F64 p 0 0 (T_ " ") :: map (OpPAA F64 0) ns).
Definition paa_look (p : string) (ns : list Z) : option (dset F64 * list spec_float) :=
  match paa_run p ns with Some σ => look σ 0 | None => None end.
Lemma paa_look_spec p ns d l : paa_look p ns = Some (d, l) -> exists σ, paa_run p ns = Some σ /\ dataset F64 σ 0 d l.
Proof. unfold paa_look. destruct (paa_run p ns) as [σ|]; [|discriminate]. intros H. exists σ. split; auto. now apply look_spec. Qed.

(** 0 0 1 and 0 0 0, reduced by 2: the distance grows from sqrt(1/3) to sqrt(1/2). *)
Theorem C66_distance_witness : exists σ d data σ' d' data' x x',
  paa_run "a" [] = Some σ /\ dataset F64 σ 0 d data /\ paa_run "a" [2] = Some σ' /\ dataset F64 σ' 0 d' data' /\
  set_count (ds_set F64 d) = 2 /\
  dist_is F64 (sub_values F64 data (set_len (ds_set F64 d)) (set_len (ds_set F64 d)) (0, 0))
              (sub_values F64 data (set_len (ds_set F64 d)) (set_len (ds_set F64 d)) (1, 0)) x /\
  dist_is F64 (sub_values F64 data' (set_len (ds_set F64 d')) (set_len (ds_set F64 d')) (0, 0))
              (sub_values F64 data' (set_len (ds_set F64 d')) (set_len (ds_set F64 d')) (1, 0)) x' /\
  lt F64 x x'.
Proof.
  assert (X : match paa_look "a" [], paa_look "a" [2] with
    | Some (d, l), Some (d', l') => (set_count (ds_set F64 d) =? 2) &&
        match pairwiseDistance F64 (sub_values F64 l (set_len (ds_set F64 d)) (set_len (ds_set F64 d)) (0, 0)) (sub_values F64 l (set_len (ds_set F64 d)) (set_len (ds_set F64 d)) (1, 0)) (ninf F64),
              pairwiseDistance F64 (sub_values F64 l' (set_len (ds_set F64 d')) (set_len (ds_set F64 d')) (0, 0)) (sub_values F64 l' (set_len (ds_set F64 d')) (set_len (ds_set F64 d')) (1, 0)) (ninf F64) with
        | Ok x, Ok x' => nltb F64 x x' | _, _ => false end
    | _, _ => false end = true) by (vm_compute; reflexivity).
  destruct (paa_look "a" []) as [[d l]|] eqn:L; [|discriminate]. destruct (paa_look "a" [2]) as [[d' l']|] eqn:L'; [|discriminate].
  apply paa_look_spec in L as (σ & R & D). apply paa_look_spec in L' as (σ' & R' & D').
  apply andb_prop in X as (X1 & X). destruct (pairwiseDistance F64 _ _ _) as [x| | |] eqn:E; try discriminate X.
  destruct (pairwiseDistance F64 (sub_values F64 l' _ _ _) _ _) as [x'| | |] eqn:E'; try discriminate X.
  exists σ, d, l, σ', d', l', x, x'. do 4 (split; [assumption|]). split; [lia|]. auto.
Qed.
(** 1 2 3 reduced by 2 and by 2 again gives 2.25, reduced by 4 it gives 2. *)
Theorem C66_compose_witness : exists σ d data σ' d' data' x x',
  paa_run "b" [2; 2] = Some σ /\ dataset F64 σ 0 d data /\ paa_run "b" [4] = Some σ' /\ dataset F64 σ' 0 d' data' /\
  set_len (ds_set F64 d) = 1 /\ set_len (ds_set F64 d') = 1 /\ cell F64 d data 0 0 x /\ cell F64 d' data' 0 0 x' /\ lt F64 x' x.
Proof.
  assert (X : match paa_look "b" [2; 2], paa_look "b" [4] with
    | Some (d, l), Some (d', l') => (set_count (ds_set F64 d) =? 1) && (set_count (ds_set F64 d') =? 1) && (set_len (ds_set F64 d) =? 1) && (set_len (ds_set F64 d') =? 1) &&
        match zget l 0, zget l' 0 with Ok x, Ok x' => nltb F64 x' x | _, _ => false end
    | _, _ => false end = true) by (vm_compute; reflexivity).
  destruct (paa_look "b" [2; 2]) as [[d l]|] eqn:L; [|discriminate]. destruct (paa_look "b" [4]) as [[d' l']|] eqn:L'; [|discriminate].
  apply paa_look_spec in L as (σ & R & D). apply paa_look_spec in L' as (σ' & R' & D').
  repeat (apply andb_prop in X as (X & ?)). destruct (zget l 0) as [x| | |] eqn:E; try discriminate. destruct (zget l' 0) as [x'| | |] eqn:E'; try discriminate.
  exists σ, d, l, σ', d', l', x, x'. do 4 (split; [assumption|]). split; [lia|]. split; [lia|].
  split; [split; [lia|split; [lia|exact E]]|]. split; [split; [lia|split; [lia|exact E']]|]. assumption.
Qed.
(** Between other bounds rounding can leave the range: the mean of three times 0.1 is above 0.1. *)
Theorem C66_range_witness : exists σ d data σ' d' data' x x',
  paa_run "c" [] = Some σ /\ dataset F64 σ 0 d data /\ paa_run "c" [3] = Some σ' /\ dataset F64 σ' 0 d' data' /\
  (forall t j y, cell F64 d data t j y -> y = x) /\ cell F64 d' data' 0 0 x' /\ lt F64 x x'.
Proof.
  assert (X : match paa_look "c" [], paa_look "c" [3] with
    | Some (d, [x; y; z]), Some (d', l') => (set_count (ds_set F64 d) =? 1) && (set_len (ds_set F64 d) =? 3) && (set_count (ds_set F64 d') =? 1) && (set_len (ds_set F64 d') =? 1) &&
        SFeqb x y && SFeqb x z && match x, y, z with S754_finite a b c, S754_finite a' b' c', S754_finite a'' b'' c'' => Bool.eqb a a' && Pos.eqb b b' && Z.eqb c c' && Bool.eqb a a'' && Pos.eqb b b'' && Z.eqb c c'' | _, _, _ => false end &&
        match zget l' 0 with Ok x' => nltb F64 x x' | _ => false end
    | _, _ => false end = true) by (vm_compute; reflexivity).
  destruct (paa_look "c" []) as [[d l]|] eqn:L; [|discriminate]. destruct l as [|x [|y [|z [|? ?]]]]; try discriminate.
  destruct (paa_look "c" [3]) as [[d' l']|] eqn:L'; [|discriminate].
  apply paa_look_spec in L as (σ & R & D). apply paa_look_spec in L' as (σ' & R' & D').
  apply andb_prop in X as (X & X9). apply andb_prop in X as (X & X8). apply andb_prop in X as (X & _). apply andb_prop in X as (X & _).
  repeat (apply andb_prop in X as (X & ?)).
  destruct x as [|[]| |a b c], y as [|[]| |a' b' c'], z as [|[]| |a'' b'' c'']; try discriminate.
  repeat (apply andb_prop in X8 as (X8 & ?)).
  repeat match goal with H : Bool.eqb _ _ = true |- _ => apply Bool.eqb_prop in H; subst | H : Pos.eqb _ _ = true |- _ => apply Pos.eqb_eq in H; subst
    | H : Z.eqb _ _ = true |- _ => apply Z.eqb_eq in H end. subst.
  destruct (zget l' 0) as [x'| | |] eqn:E'; try discriminate.
  eexists σ, d, _, σ', d', l', _, x'. do 4 (split; [eassumption|]). split.
  - intros t j y (H1' & H2' & H3'). assert (t = 0) by lia. subst t. assert (J : j = 0 \/ j = 1 \/ j = 2) by lia.
    destruct J as [-> |[-> | ->]]; cbn in H3'; injection H3' as <-; reflexivity.
  - split; [split; [lia|split; [lia|exact E']]|exact X9].
Qed.

(** ** Cases: three series of length 3, and a block size that divides it. *)
Example C66_case : exact_data (ex_st RX ex_Fin) 0 (mkDS RX ex_set None None) (map ex_Fin ex_ints) /\
  (3 | set_len (ds_set RX (mkDS RX ex_set None None))) /\ 3 * (0 + 1) <= set_len ex_set.
Proof. split; [split; [apply ex_dataset|split; [apply ex_dat|cbn; lia]]|]. split; [now exists 1|cbn; lia]. Qed.
(** A normalized dataset ([C34_C35_case]). *)
Example C66_case_normalized : exists σ d data σ' mn mx d' data',
  reachable F64 F64_IO (fun _ => true) σ /\ dataset F64 σ 0 d data /\ Forall fin64 data /\ 1 <= set_len (ds_set F64 d) /\ 1 <= set_count (ds_set F64 d) /\
  parity_ok d /\ normalized_to F64_IO (fun _ => true) σ 0 σ' mn mx d' data' /\ fin64 (nsub F64 mx mn).
Proof. apply (ex_norm_spec "b"). apply C34_C35_case. Qed.
