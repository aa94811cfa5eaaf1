(** * The laws of Laws.v for binary64. *)
From Coq Require Import ZArith Bool Reals Lra Lia SpecFloat.
From Flocq Require Import Core BinarySingleNaN.
From Verif Require Import Outcome Num Lemire Distance F64Base Laws.
Open Scope R_scope.

Lemma f64_ord : OrdLaws F64 ok64.
Proof.
  split; unfold lt, le; cbn [nltb F64].
  - intros x y Hx Hy. rewrite ltb_true, ltb_false by auto. lra.
  - intros x y z Hx Hy Hz. rewrite !ltb_false by auto. lra.
Qed.
Lemma ord_weaken64 (ok ok' : spec_float -> Prop) :
  (forall x, ok x -> ok' x) -> OrdLaws F64 ok' -> OrdLaws F64 ok.
Proof.
  intros H [A B]; split; intros.
  - apply A; auto.
  - apply B with y; auto.
Qed.

Lemma pos_sign x : ok64 x -> sign_SF x = false -> pos64 x.
Proof. intros (H & K) S. split; auto. destruct x; cbn in *; congruence. Qed.
Lemma pos_cases x : pos64 x -> (fin64 x /\ pos64 x /\ sign_SF x = false) \/ x = S754_infinity false.
Proof.
  intros P. destruct P as (H & K). destruct x; cbn in K; subst; try contradiction.
  - left. repeat split.
  - now right.
  - left. repeat split; auto.
Qed.
Lemma val_pos x : pos64 x -> 0 <= val x.
Proof.
  intros P. destruct (pos_cases x P) as [(F & _ & S)| ->].
  - now apply sign_val_pos.
  - cbn. pose proof BIG_gt0; lra.
Qed.

Lemma le64 x y : ok64 x -> ok64 y -> (le F64 x y <-> val x <= val y).
Proof. intros. unfold le. cbn [nltb F64]. now apply ltb_false. Qed.
Lemma lt64 x y : ok64 x -> ok64 y -> (lt F64 x y <-> val x < val y).
Proof. intros. unfold lt. cbn [nltb F64]. now apply ltb_true. Qed.

Lemma zero64 : nzero F64 = S754_zero false.
Proof. reflexivity. Qed.
Lemma pos_zero64 : pos64 (S754_zero false).
Proof. split; reflexivity. Qed.
Lemma pos_inf64 : pos64 (S754_infinity false).
Proof. split; reflexivity. Qed.
Lemma val_inf : val (S754_infinity false) = BIG.
Proof. reflexivity. Qed.

(** ** Addition of non-negative numbers. *)
Lemma clip_rnd_BIG r : BIG <= r -> clip (rnd r) = BIG.
Proof.
  intros H. pose proof BIG_gt0. assert (BIG <= rnd r) by (rewrite <- rnd_BIG; now apply rnd_le).
  unfold clip. rewrite Rmin_right by lra. apply Rmax_right. lra.
Qed.

Lemma add_fin_sign x y : fin64 x -> fin64 y -> sign_SF x = false -> sign_SF y = false ->
  sign_SF (SFadd prec64 emax64 x y) = false.
Proof.
  intros Hx Hy Sx Sy.
  destruct (to_B x (proj1 Hx)) as (bx & Ex & F1 & R1 & S1 & _).
  destruct (to_B y (proj1 Hy)) as (b_y & Ey & F2 & R2 & S2 & _).
  rewrite <- Ex, <- Ey, SFadd_B.
  pose proof (Bplus_correct prec64 emax64 _ _ mode_NE bx b_y (F1 Hx) (F2 Hy)) as C.
  destruct (Rlt_bool _ _).
  - destruct C as (_ & Fi & C). rewrite S1, S2, Sx, Sy, R1, R2 in C by auto. cbn in C.
    assert (0 <= val x) by now apply sign_val_pos. assert (0 <= val y) by now apply sign_val_pos.
    assert (S : Bsign (Bplus mode_NE bx b_y) = false).
    { rewrite C. case Rcompare_spec; intros; auto. lra. }
    destruct (Bplus mode_NE bx b_y); cbn in *; auto.
  - destruct C as (C & _). rewrite C, S1, Sx. reflexivity.
Qed.

Lemma add_pos64 x y : pos64 x -> pos64 y ->
  pos64 (SFadd prec64 emax64 x y) /\
  val (SFadd prec64 emax64 x y) = clip (rnd (val x + val y)).
Proof.
  intros Px Py. pose proof (val_pos _ Px). pose proof (val_pos _ Py). pose proof BIG_gt0.
  destruct (pos_cases x Px) as [(Fx & _ & Sx)| ->]; destruct (pos_cases y Py) as [(Fy & _ & Sy)| ->].
  - destruct (add_rnd x y Fx Fy) as (O & V). split; auto.
    apply pos_sign; auto. now apply add_fin_sign.
  - destruct x; cbn in Sx; subst; try (destruct Fx; contradiction); (split; [exact pos_inf64|]);
      rewrite clip_rnd_BIG; auto; rewrite val_inf; lra.
  - destruct y; cbn in Sy; subst; try (destruct Fy; contradiction); (split; [exact pos_inf64|]);
      rewrite clip_rnd_BIG; auto; rewrite val_inf; lra.
  - split; [exact pos_inf64|]. rewrite clip_rnd_BIG; auto; rewrite val_inf; lra.
Qed.

(** ** Products. *)
Lemma mul_fin_sign x y : fin64 x -> fin64 y ->
  sign_SF (SFmul prec64 emax64 x y) = xorb (sign_SF x) (sign_SF y).
Proof.
  intros Hx Hy.
  destruct (to_B x (proj1 Hx)) as (bx & Ex & F1 & R1 & S1 & _).
  destruct (to_B y (proj1 Hy)) as (b_y & Ey & F2 & R2 & S2 & _).
  rewrite <- Ex, <- Ey, SFmul_B. rewrite Ex, Ey, <- S1, <- S2.
  pose proof (Bmult_correct prec64 emax64 _ _ mode_NE bx b_y) as C.
  destruct (Rlt_bool _ _).
  - destruct C as (_ & Fi & C). rewrite (F1 Hx), (F2 Hy) in Fi.
    rewrite <- C.
    + destruct (Bmult mode_NE bx b_y); cbn in *; congruence.
    + destruct (Bmult mode_NE bx b_y); cbn in *; congruence.
  - rewrite C. unfold binary_overflow, overflow_to_inf. cbn. reflexivity.
Qed.

Lemma mul_pos_fin x y : fin64 x -> fin64 y -> pos64 x -> pos64 y ->
  pos64 (SFmul prec64 emax64 x y) /\ val (SFmul prec64 emax64 x y) = clip (rnd (val x * val y)).
Proof.
  intros Fx Fy Px Py. destruct (mul_rnd x y Fx Fy) as (O & V). split; auto.
  apply pos_sign; auto. rewrite mul_fin_sign by auto.
  destruct (pos_cases x Px) as [(_ & _ & ->)| ->]; [|destruct Fx; contradiction].
  destruct (pos_cases y Py) as [(_ & _ & ->)| ->]; [|destruct Fy; contradiction]. reflexivity.
Qed.

Lemma sq_val d : ok64 d ->
  pos64 (SFmul prec64 emax64 d d) /\ val (SFmul prec64 emax64 d d) = clip (rnd (val d * val d)).
Proof.
  intros O. pose proof BIG_gt0. assert (1 <= BIG) by (apply (bpow_le radix2 0 1024); lia).
  assert (fin64 d \/ d = S754_infinity true \/ d = S754_infinity false) as C.
  { destruct O as (V & K). destruct d as [| [|] | |]; auto; try (left; split; cbn; auto; fail); congruence. }
  destruct C as [F|[->| ->]].
  - destruct (mul_rnd d d F F) as (O' & V). split; auto. apply pos_sign; auto.
    rewrite mul_fin_sign by auto. apply xorb_nilpotent.
  - split; [exact pos_inf64|]. rewrite clip_rnd_BIG; [reflexivity|]. cbn. nra.
  - split; [exact pos_inf64|]. rewrite clip_rnd_BIG; [reflexivity|]. cbn. nra.
Qed.

(** ** Squared differences. *)
Lemma sqd_val x y : fin64 x -> fin64 y ->
  pos64 (sqd F64 x y) /\
  val (sqd F64 x y) = clip (rnd (clip (rnd (val x - val y)) * clip (rnd (val x - val y)))).
Proof.
  intros Fx Fy. unfold sqd. cbn [nsub nmul F64].
  destruct (sub_rnd x y Fx Fy) as (O & V). destruct (sq_val _ O) as (P & W).
  split; auto. rewrite W, V. reflexivity.
Qed.

(** ** Integers. *)
Lemma format_Z z : (Z.abs z <= 2 ^ 53)%Z -> generic_format radix2 fexp64 (IZR z).
Proof.
  intros H. apply (generic_format_FLT radix2 (-1074) 53).
  destruct (Z.eq_dec (Z.abs z) (2 ^ 53)) as [E|E].
  - exists (Float radix2 (z / 2 ^ 53) 53); cbn [Fnum Fexp].
    + unfold F2R; cbn [Fnum Fexp]. change (bpow radix2 53) with (IZR (2 ^ 53)).
      rewrite <- mult_IZR. f_equal.
      assert (z = 2 ^ 53 \/ z = - 2 ^ 53)%Z as [-> | ->] by lia; reflexivity.
    + assert (z = 2 ^ 53 \/ z = - 2 ^ 53)%Z as [-> | ->] by lia; cbn; lia.
    + lia.
  - exists (Float radix2 z 0); cbn [Fnum Fexp].
    + unfold F2R; cbn. ring.
    + change (radix2 ^ 53)%Z with (2 ^ 53)%Z. lia.
    + lia.
Qed.

Lemma ofZ_exact z : (Z.abs z <= 2 ^ 53)%Z -> fin64 (f64_ofZ z) /\ val (f64_ofZ z) = IZR z.
Proof.
  intros H. destruct (ofZ_rnd z) as (O & V). rewrite rnd_id in V by now apply format_Z.
  assert (B : - BIG < IZR z < BIG).
  { assert (IZR (2 ^ 53) < BIG).
    { change (IZR (2 ^ 53)) with (bpow radix2 53). apply bpow_lt. lia. }
    assert (IZR (Z.abs z) <= IZR (2 ^ 53)) by now apply IZR_le.
    rewrite abs_IZR in *. apply Rabs_lt_inv. lra. }
  rewrite clip_id in V by lra. split; auto. apply fin_val_bound; auto. now rewrite V.
Qed.
Lemma ofZ_pos k : (0 < k <= 2 ^ 53)%Z ->
  fin64 (f64_ofZ k) /\ pos64 (f64_ofZ k) /\ val (f64_ofZ k) = IZR k /\ 0 < IZR k.
Proof.
  intros H. destruct (ofZ_exact k) as (F & V); [lia|].
  assert (0 < IZR k) by (apply IZR_lt; lia).
  split; [exact F|]. split; [|auto]. split; [exact (proj1 F)|]. destruct F as (F & K).
  destruct (f64_ofZ k) as [| | | [|]]; try contradiction; auto.
  - cbn [val] in V. exfalso. lra.
  - cbn [val cond_Zopp Z.opp] in V. assert (F2R (Float radix2 (Z.neg m) e) < 0) by now apply F2R_lt_0.
    exfalso. lra.
Qed.

(** ** Division by a positive integer, square root. *)
Lemma div_fin_sign x y : fin64 x -> fin64 y -> val y <> 0 ->
  sign_SF (SFdiv prec64 emax64 x y) = xorb (sign_SF x) (sign_SF y).
Proof.
  intros Hx Hy Hz.
  destruct (to_B x (proj1 Hx)) as (bx & Ex & F1 & R1 & S1 & _).
  destruct (to_B y (proj1 Hy)) as (b_y & Ey & F2 & R2 & S2 & _).
  rewrite <- Ex, <- Ey, SFdiv_B. rewrite Ex, Ey, <- S1, <- S2.
  pose proof (Bdiv_correct prec64 emax64 _ _ mode_NE bx b_y) as C.
  rewrite R2 in C by auto. specialize (C Hz).
  destruct (Rlt_bool _ _).
  - destruct C as (_ & Fi & C). rewrite (F1 Hx) in Fi.
    rewrite <- C.
    + destruct (Bdiv mode_NE bx b_y); cbn in *; congruence.
    + destruct (Bdiv mode_NE bx b_y); cbn in *; congruence.
  - rewrite C. reflexivity.
Qed.

Lemma div_pos x k : fin64 x -> pos64 x -> (0 < k <= 2 ^ 53)%Z ->
  fin64 (SFdiv prec64 emax64 x (f64_ofZ k)) /\ pos64 (SFdiv prec64 emax64 x (f64_ofZ k)) /\
  val (SFdiv prec64 emax64 x (f64_ofZ k)) = rnd (val x / IZR k).
Proof.
  intros Fx Px Hk. destruct (ofZ_pos k Hk) as (Fk & Pk & Vk & K).
  assert (1 <= IZR k) by (apply (IZR_le 1); lia).
  destruct (div_rnd x _ Fx Fk) as (O & V); [lra|]. rewrite Vk in V.
  pose proof (val_pos _ Px). pose proof (val_fin_bound _ Fx). pose proof BIG_gt0.
  assert (0 < / IZR k <= 1).
  { split; [now apply Rinv_0_lt_compat|]. rewrite <- Rinv_1. apply Rinv_le; lra. }
  assert (0 <= val x / IZR k <= val x) by (unfold Rdiv; nra).
  assert (0 <= rnd (val x / IZR k) <= val x).
  { split; [apply rnd_pos; lra|]. rewrite <- (rnd_val x Fx) at 2. apply rnd_le; lra. }
  rewrite clip_id in V by lra. split; [|split]; auto.
  - apply fin_val_bound; auto. lra.
  - apply pos_sign; auto. rewrite div_fin_sign by (auto; lra).
    destruct (pos_cases x Px) as [(_ & _ & ->)| ->]; [|destruct Fx; contradiction].
    destruct (pos_cases _ Pk) as [(_ & _ & ->)| E]; [reflexivity|].
    destruct Fk as (_ & Fk). rewrite E in Fk. contradiction.
Qed.

Lemma klen53 k : klen k -> (0 < k <= 2 ^ 53)%Z /\ (0 < 2 * k <= 2 ^ 53)%Z.
Proof. unfold klen. lia. Qed.

Lemma div_inf k : (0 < k <= 2 ^ 53)%Z ->
  SFdiv prec64 emax64 (S754_infinity false) (f64_ofZ k) = S754_infinity false.
Proof.
  intros Hk. destruct (ofZ_pos k Hk) as (Fk & (_ & Pk) & Vk & K).
  destruct Fk as (_ & Fk).
  destruct (f64_ofZ k); try contradiction; rewrite Pk; reflexivity.
Qed.

Lemma norm_dtw_fin x k : klen k -> fin64 x -> pos64 x ->
  fin64 (euc_norm_dtw F64 x k) /\ pos64 (euc_norm_dtw F64 x k) /\
  val (euc_norm_dtw F64 x k) = rnd (rnd (sqrt (val x)) / IZR (2 * k)).
Proof.
  intros Hk Fx Px. destruct (klen53 k Hk) as (_ & K). unfold euc_norm_dtw. cbn [ndiv nsqrt nofZ F64].
  destruct (sqrt_rnd x Fx Px) as (F1 & P1 & V1).
  destruct (div_pos _ (2 * k) F1 P1 K) as (F2 & P2 & V2). rewrite V1 in V2. auto.
Qed.
Lemma norm_fin x k : klen k -> fin64 x -> pos64 x ->
  fin64 (euc_norm F64 x k) /\ pos64 (euc_norm F64 x k) /\
  val (euc_norm F64 x k) = rnd (sqrt (rnd (val x / IZR k))).
Proof.
  intros Hk Fx Px. destruct (klen53 k Hk) as (K & _). unfold euc_norm. cbn [ndiv nsqrt nofZ F64].
  destruct (div_pos _ k Fx Px K) as (F2 & P2 & V2).
  destruct (sqrt_rnd _ F2 P2) as (F1 & P1 & V1). rewrite V2 in V1. auto.
Qed.
Lemma norm_dtw_inf k : klen k -> euc_norm_dtw F64 (S754_infinity false) k = S754_infinity false.
Proof.
  intros Hk. destruct (klen53 k Hk) as (_ & K). unfold euc_norm_dtw. cbn [ndiv nsqrt nofZ F64].
  cbn [SFsqrt]. now apply div_inf.
Qed.
Lemma norm_inf k : klen k -> euc_norm F64 (S754_infinity false) k = S754_infinity false.
Proof.
  intros Hk. destruct (klen53 k Hk) as (K & _). unfold euc_norm. cbn [ndiv nsqrt nofZ F64].
  now rewrite div_inf.
Qed.

(** ** Squared dropouts. *)
Lemma mul_inf y : fin64 y -> pos64 y -> 0 < val y ->
  SFmul prec64 emax64 (S754_infinity false) y = S754_infinity false.
Proof.
  intros (_ & F) (_ & P) V. destruct y; try contradiction; cbn in *; subst; auto. lra.
Qed.
Lemma mul_pos_int x k : pos64 x -> (0 < k <= 2 ^ 53)%Z ->
  pos64 (SFmul prec64 emax64 x (f64_ofZ k)) /\
  (x = S754_infinity false -> SFmul prec64 emax64 x (f64_ofZ k) = S754_infinity false).
Proof.
  intros Px Hk. destruct (ofZ_pos k Hk) as (Fk & Pk & Vk & K).
  destruct (pos_cases x Px) as [(Fx & _ & _)| ->].
  - split.
    + now apply mul_pos_fin.
    + intros ->. destruct Fx; contradiction.
  - rewrite mul_inf by (auto; lra). split; auto.
Qed.

Lemma mul_mono_val a b c d : 0 <= a <= c -> 0 <= b <= d ->
  clip (rnd (a * b)) <= clip (rnd (c * d)).
Proof. intros. apply clip_le, rnd_le. nra. Qed.

Lemma sqd_mono_val x y u v : fin64 x -> fin64 y -> fin64 u -> fin64 v ->
  Rabs (val x - val y) <= Rabs (val u - val v) -> val (sqd F64 x y) <= val (sqd F64 u v).
Proof.
  intros Fx Fy Fu Fv H.
  destruct (sqd_val x y Fx Fy) as (_ & ->). destruct (sqd_val u v Fu Fv) as (_ & ->).
  assert (A : forall r, clip (rnd r) * clip (rnd r) = clip (rnd (Rabs r)) * clip (rnd (Rabs r))).
  { intros r. unfold Rabs. destruct (Rcase_abs r); auto. rewrite rnd_opp, clip_opp. ring. }
  rewrite (A (val x - val y)), (A (val u - val v)).
  apply mul_mono_val; (split; [apply clip_pos, rnd_pos, Rabs_pos|apply clip_le, rnd_le; lra]).
Qed.

Lemma f64_cost : CostLaws F64 fin64 pos64.
Proof.
  split.
  - apply (ord_weaken64 _ _ fin_ok f64_ord).
  - apply (ord_weaken64 _ _ pos_ok f64_ord).
  - intros x y Px Py. rewrite !le64 by auto using pos_ok. intros. apply val_inj; auto. lra.
  - exact pos_inf64.
  - intros x Px. rewrite le64 by auto using pos_ok, pos_inf64. cbn [ninf F64]. rewrite val_inf.
    apply val_bound, pos_ok, Px.
  - exact pos_zero64.
  - intros x Px. rewrite le64 by auto using pos_ok, pos_zero64. now apply val_pos.
  - reflexivity.
  - intros x y Fx Fy. now apply sqd_val.
  - intros x y Fx Fy. apply val_inj; try now apply sqd_val.
    apply Rle_antisym; apply sqd_mono_val; auto; rewrite Rabs_minus_sym; lra.
  - intros x Fx. apply val_inj; [now apply sqd_val|exact pos_zero64|].
    destruct (sqd_val x x Fx Fx) as (_ & ->). pose proof BIG_gt0.
    rewrite Rminus_diag_eq by reflexivity. rewrite rnd_0, (clip_id 0), Rmult_0_l, rnd_0, (clip_id 0) by lra.
    reflexivity.
  - intros b u c Fb Fu Fc A B. apply lt64 in A; auto using fin_ok. apply le64 in B; auto using fin_ok.
    apply le64; try (apply pos_ok; now apply sqd_val). apply sqd_mono_val; auto.
    rewrite !Rabs_pos_eq by lra. lra.
  - intros b l c Fb Fl Fc A B. apply lt64 in A; auto using fin_ok. apply le64 in B; auto using fin_ok.
    apply le64; try (apply pos_ok; now apply sqd_val). apply sqd_mono_val; auto.
    rewrite !Rabs_left1 by lra. lra.
  - intros x y Px Py. now apply add_pos64.
  - intros x x' y y' Px Px' Py Py' A B. cbn [nadd F64].
    destruct (add_pos64 x y Px Py) as (P1 & V1). destruct (add_pos64 x' y' Px' Py') as (P2 & V2).
    apply le64 in A; auto using pos_ok. apply le64 in B; auto using pos_ok.
    apply le64; auto using pos_ok. rewrite V1, V2. apply clip_le, rnd_le. lra.
  - intros x Px. rewrite zero64. cbn [nadd F64].
    destruct (pos_cases x Px) as [(Fx & _ & S)| ->]; [|reflexivity].
    destruct x; cbn in *; subst; auto.
  - intros x Px. rewrite zero64. cbn [nadd F64].
    destruct (pos_cases x Px) as [(Fx & _ & S)| ->]; [|reflexivity].
    destruct x; cbn in *; subst; auto.
  - intros x k Hk Px. destruct (pos_cases x Px) as [(Fx & _ & S)| ->].
    + now apply norm_dtw_fin.
    + rewrite norm_dtw_inf by auto. exact pos_inf64.
  - intros x y k Hk Px Py H. apply le64 in H; auto using pos_ok.
    assert (K : 0 < IZR (2 * k)) by (apply IZR_lt; unfold klen in Hk; lia).
    destruct (pos_cases y Py) as [(Fy & _ & Sy)| ->].
    + destruct (pos_cases x Px) as [(Fx & _ & Sx)| ->].
      * destruct (norm_dtw_fin x k Hk Fx Px) as (F1 & P1 & V1).
        destruct (norm_dtw_fin y k Hk Fy Py) as (F2 & P2 & V2).
        apply le64; auto using pos_ok. rewrite V1, V2. apply rnd_le.
        unfold Rdiv. apply Rmult_le_compat_r; [apply Rlt_le, Rinv_0_lt_compat; lra|].
        apply rnd_le. now apply sqrt_le_1_alt.
      * rewrite val_inf in H. pose proof (val_fin_bound _ Fy). lra.
    + rewrite norm_dtw_inf by auto. destruct (pos_cases x Px) as [(Fx & _ & Sx)| ->].
      * destruct (norm_dtw_fin x k Hk Fx Px) as (F1 & P1 & V1).
        apply le64; auto using pos_ok, pos_inf64. rewrite val_inf. apply val_bound, pos_ok; auto.
      * rewrite norm_dtw_inf by auto. reflexivity.
  - intros. now apply norm_dtw_inf.
  - intros k Hk. rewrite zero64. destruct (norm_dtw_fin (S754_zero false) k Hk) as (F & P & V).
    + split; cbn; auto.
    + exact pos_zero64.
    + apply val_inj; auto using pos_zero64. rewrite V. cbn [val]. rewrite sqrt_0, rnd_0.
      unfold Rdiv. rewrite Rmult_0_l. apply rnd_0.
  - intros x k Hk Px H. apply lt64 in H; auto using pos_ok, pos_inf64. cbn [ninf F64] in *. rewrite val_inf in H.
    destruct (pos_cases x Px) as [(Fx & _ & S)| ->]; [|rewrite val_inf in H; lra].
    destruct (norm_dtw_fin x k Hk Fx Px) as (F & P & _).
    apply lt64; auto using pos_ok, pos_inf64. rewrite val_inf. now apply val_fin_bound.
  - intros x k Hk Px. destruct (pos_cases x Px) as [(Fx & _ & S)| ->].
    + now apply norm_fin.
    + rewrite norm_inf by auto. exact pos_inf64.
  - intros x y k Hk Px Py H. apply le64 in H; auto using pos_ok.
    assert (K : 0 < IZR k) by (apply IZR_lt; unfold klen in Hk; lia).
    destruct (pos_cases y Py) as [(Fy & _ & Sy)| ->].
    + destruct (pos_cases x Px) as [(Fx & _ & Sx)| ->].
      * destruct (norm_fin x k Hk Fx Px) as (F1 & P1 & V1).
        destruct (norm_fin y k Hk Fy Py) as (F2 & P2 & V2).
        apply le64; auto using pos_ok. rewrite V1, V2. apply rnd_le. apply sqrt_le_1_alt.
        apply rnd_le. unfold Rdiv. apply Rmult_le_compat_r; [apply Rlt_le, Rinv_0_lt_compat; lra|lra].
      * rewrite val_inf in H. pose proof (val_fin_bound _ Fy). lra.
    + rewrite norm_inf by auto. destruct (pos_cases x Px) as [(Fx & _ & Sx)| ->].
      * destruct (norm_fin x k Hk Fx Px) as (F1 & P1 & V1).
        apply le64; auto using pos_ok, pos_inf64. rewrite val_inf. apply val_bound, pos_ok; auto.
      * rewrite norm_inf by auto. reflexivity.
  - intros. now apply norm_inf.
  - intros k Hk. rewrite zero64. destruct (norm_fin (S754_zero false) k Hk) as (F & P & V).
    + split; cbn; auto.
    + exact pos_zero64.
    + apply val_inj; auto using pos_zero64. rewrite V. cbn [val]. unfold Rdiv. rewrite Rmult_0_l, rnd_0, sqrt_0.
      apply rnd_0.
  - intros x k Hk Px H. apply lt64 in H; auto using pos_ok, pos_inf64. cbn [ninf F64] in *. rewrite val_inf in H.
    destruct (pos_cases x Px) as [(Fx & _ & S)| ->]; [|rewrite val_inf in H; lra].
    destruct (norm_fin x k Hk Fx Px) as (F & P & _).
    apply lt64; auto using pos_ok, pos_inf64. rewrite val_inf. now apply val_fin_bound.
  - intros d k Hk Pd. destruct (klen53 k Hk) as (K & _). unfold euc_inorm_dtw. cbn [nmul nofZ F64].
    apply sq_val, pos_ok. apply mul_pos_int; auto. apply mul_pos_int; auto. lia.
  - intros k Hk. destruct (klen53 k Hk) as (K & _). unfold euc_inorm_dtw. cbn [nmul nofZ F64 ninf].
    change (SFmul prec64 emax64 (S754_infinity false) (f64_ofZ 2)) with (S754_infinity false).
    rewrite (proj2 (mul_pos_int (S754_infinity false) k pos_inf64 K) eq_refl). reflexivity.
  - intros d k Hk Pd. destruct (klen53 k Hk) as (K & _). unfold euc_inorm. cbn [nmul nofZ F64].
    apply mul_pos_int; auto. apply sq_val, pos_ok; auto.
  - intros k Hk. destruct (klen53 k Hk) as (K & _). unfold euc_inorm. cbn [nmul nofZ F64 ninf].
    change (SFmul prec64 emax64 (S754_infinity false) (S754_infinity false)) with (S754_infinity false).
    now apply mul_pos_int; auto using pos_inf64.
Qed.
