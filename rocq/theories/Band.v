(** * The warping band size (Distance.cpp:132-136) in both arithmetics. *)
From Coq Require Import ZArith Bool Reals Lra Lia SpecFloat.
From Flocq Require Import Core BinarySingleNaN.
From Verif Require Import Outcome Num RX Lemire Distance F64Base Laws F64Laws RXLaws.
Open Scope R_scope.

Lemma floor64 x : fin64 x -> f64_floor x = Some (Zfloor (val x)).
Proof.
  intros (V & F). destruct x as [s| | |s m e]; try contradiction; cbn [f64_floor val].
  - now rewrite Zfloor_IZR.
  - f_equal. unfold F2R; cbn [Fnum Fexp]. destruct (Z.leb_spec 0 e) as [He|He].
    + rewrite <- IZR_Zpower by auto. rewrite <- mult_IZR, Zfloor_IZR. reflexivity.
    + replace e with (- (- e))%Z at 2 by lia. rewrite bpow_opp, <- IZR_Zpower by lia.
      change (Z.pow radix2 (- e)) with (2 ^ (- e))%Z.
      symmetry. apply Zfloor_div. apply Z.pow_nonzero; lia.
Qed.

(** A ratio in [0,1]. *)
Definition ratio64 (x : spec_float) : Prop := fin64 x /\ 0 <= val x <= 1.

Lemma mul_ofZ_ratio k x : klen k -> ratio64 x ->
  fin64 (SFmul prec64 emax64 (f64_ofZ k) x) /\
  val (SFmul prec64 emax64 (f64_ofZ k) x) = rnd (IZR k * val x).
Proof.
  intros Hk (Fx & Vx). destruct (ofZ_pos k) as (Fk & _ & Ek & Pk); [unfold klen in Hk; lia|].
  destruct (mul_rnd _ _ Fk Fx) as (O & V). rewrite Ek in V.
  assert (B : 0 <= rnd (IZR k * val x) <= IZR k).
  { split; [apply rnd_pos; nra|]. rewrite <- (rnd_id (IZR k)) at 2.
    - apply rnd_le. nra.
    - apply format_Z. unfold klen in Hk. lia. }
  assert (K : IZR k < BIG).
  { apply Rle_lt_trans with (bpow radix2 30).
    - change (bpow radix2 30) with (IZR (2 ^ 30)). apply IZR_le. unfold klen in Hk; lia.
    - apply bpow_lt. lia. }
  pose proof BIG_gt0. rewrite clip_id in V by lra.
  split; auto. apply fin_val_bound; auto. rewrite V. lra.
Qed.

Definition band64 (x : spec_float) (k : Z) : Z := Z.min (Zfloor (rnd (IZR k * val x))) (k - 1).

Lemma band64_Ok k x : klen k -> ratio64 x -> calculateWarpingBandSize F64 x k = Ok (band64 x k).
Proof.
  intros Hk Hx. destruct (mul_ofZ_ratio k x Hk Hx) as (F & V).
  unfold calculateWarpingBandSize, floor_int. cbn [nfloor nmul nofZ F64].
  rewrite (floor64 _ F), V. destruct Hx as (Fx & Vx).
  assert (K : 1 <= IZR k) by (apply IZR_le; unfold klen in Hk; lia).
  assert (B : (0 <= Zfloor (rnd (IZR k * val x)) <= k)%Z).
  { split.
    - apply Zfloor_lub. apply rnd_pos. nra.
    - apply le_IZR. apply Rle_trans with (rnd (IZR k * val x)); [apply Zfloor_lb|].
      rewrite <- (rnd_id (IZR k)) at 2.
      + apply rnd_le. nra.
      + apply format_Z. unfold klen in Hk. lia. }
  unfold klen in Hk. destruct (int_min <=? _)%Z eqn:E1; [|unfold int_min in E1; lia].
  destruct (_ <=? int_max)%Z eqn:E2; [|unfold int_max in E2; lia]. reflexivity.
Qed.
Lemma band64_range k x : klen k -> ratio64 x -> (0 <= band64 x k <= k - 1)%Z.
Proof.
  intros Hk (Fx & Vx). unfold band64. assert (K : 1 <= IZR k) by (apply IZR_le; unfold klen in Hk; lia).
  assert (0 <= Zfloor (rnd (IZR k * val x)))%Z by (apply Zfloor_lub; apply rnd_pos; nra).
  unfold klen in Hk. lia.
Qed.
Lemma band64_mono k k' x : (1 <= k <= k')%Z -> ratio64 x -> (band64 x k <= band64 x k')%Z.
Proof.
  intros Hk (Fx & Vx). unfold band64.
  assert (Zfloor (rnd (IZR k * val x)) <= Zfloor (rnd (IZR k' * val x)))%Z.
  { apply Zfloor_le, rnd_le. assert (IZR k <= IZR k') by (apply IZR_le; lia). nra. }
  lia.
Qed.

(** A ratio above 1 acts like 1, until the conversion to int overflows. *)
Lemma band64_above1 k x : klen k -> fin64 x -> 1 <= val x -> IZR k * val x <= IZR int_max ->
  calculateWarpingBandSize F64 x k = Ok (k - 1)%Z.
Proof.
  intros Hk Fx Vx HB. destruct (ofZ_pos k) as (Fk & _ & Ek & Pk); [unfold klen in Hk; lia|].
  destruct (mul_rnd _ _ Fk Fx) as (O & V). rewrite Ek in V.
  assert (L : IZR k <= rnd (IZR k * val x)).
  { rewrite <- (rnd_id (IZR k)) at 1; [|apply format_Z; unfold klen in Hk; lia]. apply rnd_le. nra. }
  assert (U : rnd (IZR k * val x) <= IZR int_max).
  { rewrite <- (rnd_id (IZR int_max)); [|apply format_Z; unfold int_max; lia]. now apply rnd_le. }
  assert (M : IZR int_max < BIG).
  { apply Rlt_le_trans with (bpow radix2 31).
    - change (bpow radix2 31) with (IZR (2 ^ 31)). apply IZR_lt. reflexivity.
    - apply bpow_le. lia. }
  pose proof BIG_gt0. rewrite clip_id in V by lra.
  assert (F : fin64 (SFmul prec64 emax64 (f64_ofZ k) x)) by (apply fin_val_bound; auto; rewrite V; lra).
  unfold calculateWarpingBandSize, floor_int. cbn [nfloor nmul nofZ F64]. rewrite (floor64 _ F), V.
  assert (k <= Zfloor (rnd (IZR k * val x)))%Z by now apply Zfloor_lub.
  assert (Zfloor (rnd (IZR k * val x)) <= int_max)%Z.
  { apply le_IZR. apply Rle_trans with (2 := U). apply Zfloor_lb. }
  unfold klen in Hk. destruct (int_min <=? _)%Z eqn:E1; [|unfold int_min in E1; lia].
  destruct (_ <=? int_max)%Z eqn:E2; [|lia]. cbn [andb bind]. f_equal. lia.
Qed.
Lemma band64_huge k x : klen k -> fin64 x -> IZR (2 ^ 31) <= IZR k * val x ->
  calculateWarpingBandSize F64 x k = UB BadConv.
Proof.
  intros Hk Fx HB. destruct (ofZ_pos k) as (Fk & _ & Ek & Pk); [unfold klen in Hk; lia|].
  destruct (mul_rnd _ _ Fk Fx) as (O & V). rewrite Ek in V.
  assert (L : IZR (2 ^ 31) <= rnd (IZR k * val x)).
  { rewrite <- (rnd_id (IZR (2 ^ 31))); [|apply format_Z; lia]. now apply rnd_le. }
  unfold calculateWarpingBandSize, floor_int. cbn [nfloor nmul nofZ F64].
  destruct (Rlt_dec (rnd (IZR k * val x)) BIG) as [B|B].
  - pose proof BIG_gt0. assert (0 <= IZR (2 ^ 31)) by (apply IZR_le; lia). rewrite clip_id in V by lra.
    assert (F : fin64 (SFmul prec64 emax64 (f64_ofZ k) x)) by (apply fin_val_bound; auto; rewrite V; lra).
    rewrite (floor64 _ F), V.
    assert (2 ^ 31 <= Zfloor (rnd (IZR k * val x)))%Z by now apply Zfloor_lub.
    destruct (_ <=? int_max)%Z eqn:E2; [unfold int_max in E2; lia|]. now rewrite andb_false_r.
  - assert (V' : val (SFmul prec64 emax64 (f64_ofZ k) x) = BIG).
    { rewrite V. pose proof BIG_gt0. unfold clip. rewrite Rmin_right by lra. apply Rmax_right. lra. }
    assert (N : ~ fin64 (SFmul prec64 emax64 (f64_ofZ k) x)).
    { intros F. pose proof (val_fin_bound _ F). lra. }
    destruct O as (O1 & O2). destruct (SFmul prec64 emax64 (f64_ofZ k) x); cbn [f64_floor]; auto.
    + exfalso; apply N. now split.
    + exfalso; apply N. now split.
Qed.

(** Exact arithmetic. *)
Definition ratio_rx (x : rx) : Prop := exists r, x = Fin r /\ 0 <= r <= 1.
Definition band_rx (r : R) (k : Z) : Z := Z.min (Zfloor (IZR k * r)) (k - 1).

Lemma Int_part_Zfloor r : Int_part r = Zfloor r.
Proof. reflexivity. Qed.

Lemma band_rx_Ok k r : klen k -> 0 <= r <= 1 -> calculateWarpingBandSize RX (Fin r) k = Ok (band_rx r k).
Proof.
  intros Hk Hx. unfold calculateWarpingBandSize, floor_int. cbn [nfloor nmul nofZ RX rx_mul].
  rewrite Int_part_Zfloor.
  assert (K : 1 <= IZR k) by (apply IZR_le; unfold klen in Hk; lia).
  assert (B : (0 <= Zfloor (IZR k * r) <= k)%Z).
  { split.
    - apply Zfloor_lub. nra.
    - apply le_IZR. apply Rle_trans with (IZR k * r); [apply Zfloor_lb|]. nra. }
  unfold klen in Hk. destruct (int_min <=? _)%Z eqn:E1; [|unfold int_min in E1; lia].
  destruct (_ <=? int_max)%Z eqn:E2; [|unfold int_max in E2; lia]. reflexivity.
Qed.
Lemma band_rx_range k r : klen k -> 0 <= r <= 1 -> (0 <= band_rx r k <= k - 1)%Z.
Proof.
  intros Hk Hx. unfold band_rx. assert (K : 1 <= IZR k) by (apply IZR_le; unfold klen in Hk; lia).
  assert (0 <= Zfloor (IZR k * r))%Z by (apply Zfloor_lub; nra).
  unfold klen in Hk. lia.
Qed.
Lemma band_rx_mono k k' r : (1 <= k <= k')%Z -> 0 <= r <= 1 -> (band_rx r k <= band_rx r k')%Z.
Proof.
  intros Hk Hx. unfold band_rx.
  assert (Zfloor (IZR k * r) <= Zfloor (IZR k' * r))%Z.
  { apply Zfloor_le. assert (IZR k <= IZR k') by (apply IZR_le; lia). nra. }
  lia.
Qed.
(** One more point widens the band by at most one. *)
Lemma band_rx_step k r : (1 <= k)%Z -> 0 <= r <= 1 -> (band_rx r (k + 1) <= band_rx r k + 1)%Z.
Proof.
  intros Hk Hx. unfold band_rx.
  assert (Zfloor (IZR (k + 1) * r) <= Zfloor (IZR k * r) + 1)%Z.
  { apply Z.lt_succ_r. apply lt_IZR. apply Rle_lt_trans with (IZR (k + 1) * r); [apply Zfloor_lb|].
    rewrite plus_IZR. unfold Z.succ. rewrite !plus_IZR. pose proof (Zfloor_ub (IZR k * r)). nra. }
  lia.
Qed.

(** The same for binary64 and lengths up to 2^26. *)
Lemma rnd_floor_step k x : (1 <= k <= 2 ^ 26)%Z -> ratio64 x ->
  (Z.min (Zfloor (rnd (IZR (k + 1) * val x))) k <= Zfloor (rnd (IZR k * val x)) + 1)%Z.
Proof.
  intros Hk (Fx & Vx). set (rho := val x) in *.
  set (n := Z.min (Zfloor (rnd (IZR (k + 1) * rho))) k).
  assert (K1 : 1 <= IZR k) by (apply IZR_le; lia).
  assert (K2 : IZR k <= IZR (2 ^ 26)) by (apply IZR_le; lia).
  assert (Hn : IZR n <= rnd (IZR (k + 1) * rho)).
  { apply Rle_trans with (IZR (Zfloor (rnd (IZR (k + 1) * rho)))); [apply IZR_le; lia|apply Zfloor_lb]. }
  assert (Hnk : (n <= k)%Z) by lia.
  (* absolute error of the rounding *)
  assert (Herr : Rabs (rnd (IZR (k + 1) * rho) - IZR (k + 1) * rho) <= bpow radix2 (-27)).
  { destruct (Req_dec (IZR (k + 1) * rho) 0) as [E|E].
    - rewrite E, rnd_0. rewrite Rminus_0_r, Rabs_R0. apply bpow_ge_0.
    - apply Rle_trans with (/ 2 * ulp radix2 fexp64 (IZR (k + 1) * rho)).
      + apply error_le_half_ulp; auto with typeclass_instances.
      + replace (bpow radix2 (-27)) with (/ 2 * bpow radix2 (-26)) by (simpl; lra).
        apply Rmult_le_compat_l; [lra|]. rewrite ulp_neq_0 by auto. apply bpow_le.
        unfold cexp, SpecFloat.fexp, SpecFloat.emin, prec64, emax64.
        assert (mag radix2 (IZR (k + 1) * rho) <= 27)%Z; [|lia].
        apply mag_le_bpow; auto. rewrite Rabs_pos_eq by (rewrite plus_IZR; nra).
        rewrite plus_IZR. apply Rle_lt_trans with (IZR (2 ^ 26) + 1); [nra|].
        simpl (bpow radix2 27). lra. }
  apply Rabs_le_inv in Herr.
  assert (Hgoal : IZR (n - 1) <= IZR k * rho).
  { rewrite minus_IZR. rewrite plus_IZR in *.
    destruct (Z.eq_dec n k) as [E|E].
    - (* n = k *)
      assert (IZR n = IZR k) by now rewrite E. simpl (bpow radix2 (-27)) in Herr.
      (* k - eps <= (k+1) rho, so k rho >= (k - eps) k / (k+1) *)
      assert (Hq : IZR k - / 134217728 <= (IZR k + 1) * rho) by lra.
      assert (IZR k * (IZR k - / 134217728) <= (IZR k + 1) * (IZR k * rho)) by nra.
      assert ((IZR k + 1) * (IZR k - 1) <= (IZR k + 1) * (IZR k * rho)); [|nra].
      apply Rle_trans with (IZR k * (IZR k - / 134217728)); auto. simpl in K2. nra.
    - assert (IZR n <= IZR k - 1) by (rewrite <- minus_IZR; apply IZR_le; lia).
      simpl (bpow radix2 (-27)) in Herr.
      destruct (Rle_dec (IZR n) 1); [nra|].
      assert (Hq : IZR n - / 134217728 <= (IZR k + 1) * rho) by lra.
      assert (IZR k * (IZR n - / 134217728) <= (IZR k + 1) * (IZR k * rho)) by nra.
      assert ((IZR k + 1) * (IZR n - 1) <= (IZR k + 1) * (IZR k * rho)); [|nra].
      apply Rle_trans with (IZR k * (IZR n - / 134217728)); auto. simpl in K2. nra. }
  assert (n - 1 <= Zfloor (rnd (IZR k * rho)))%Z; [|lia].
  apply Zfloor_lub. destruct (Z_le_gt_dec 0 (n - 1)) as [Hp|Hneg].
  - rewrite <- (rnd_id (IZR (n - 1))); [now apply rnd_le|]. apply format_Z. lia.
  - apply Rle_trans with 0; [apply IZR_le; lia|]. apply rnd_pos. nra.
Qed.
Lemma band64_step k x : (1 <= k <= 2 ^ 26)%Z -> ratio64 x -> (band64 x (k + 1) <= band64 x k + 1)%Z.
Proof.
  intros Hk Hx. pose proof (rnd_floor_step k x Hk Hx). unfold band64. lia.
Qed.
