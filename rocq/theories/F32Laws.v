(** * The laws of Laws.v for binary32 and for the values of the single-precision build: F64Laws.v
    for binary32 (integers are rounded, so a length above 2^24 is not exact). *)
From Coq Require Import ZArith Bool Reals Lra Lia SpecFloat.
From Flocq Require Import Core BinarySingleNaN.
From Verif Require Import Outcome Num Single Lemire Distance F32Base Laws.
Open Scope R_scope.

Lemma f32_ord : OrdLaws B32 ok32.
Proof.
  split; unfold lt, le; cbn [nltb B32].
  - intros x y Hx Hy. rewrite ltb_true, ltb_false by auto. lra.
  - intros x y z Hx Hy Hz. rewrite !ltb_false by auto. lra.
Qed.
Lemma ord_weaken32 (ok ok' : spec_float -> Prop) :
  (forall x, ok x -> ok' x) -> OrdLaws B32 ok' -> OrdLaws B32 ok.
Proof.
  intros H [A B]; split; intros.
  - apply A; auto.
  - apply B with y; auto.
Qed.

Lemma pos_sign x : ok32 x -> sign_SF x = false -> pos32 x.
Proof. intros (H & K) S. split; auto. destruct x; cbn in *; congruence. Qed.
Lemma pos_cases x : pos32 x -> (fin32 x /\ pos32 x /\ sign_SF x = false) \/ x = S754_infinity false.
Proof.
  intros P. destruct P as (H & K). destruct x; cbn in K; subst; try contradiction.
  - left. repeat split.
  - now right.
  - left. repeat split; auto.
Qed.
Lemma val_pos x : pos32 x -> 0 <= val x.
Proof.
  intros P. destruct (pos_cases x P) as [(F & _ & S)| ->].
  - now apply sign_val_pos.
  - cbn. pose proof BIG_gt0; lra.
Qed.

Lemma le32 x y : ok32 x -> ok32 y -> (le B32 x y <-> val x <= val y).
Proof. intros. unfold le. cbn [nltb B32]. now apply ltb_false. Qed.
Lemma lt32 x y : ok32 x -> ok32 y -> (lt B32 x y <-> val x < val y).
Proof. intros. unfold lt. cbn [nltb B32]. now apply ltb_true. Qed.

Lemma zero32 : nzero B32 = S754_zero false.
Proof. reflexivity. Qed.
Lemma pos_zero32 : pos32 (S754_zero false).
Proof. split; reflexivity. Qed.
Lemma pos_inf32 : pos32 (S754_infinity false).
Proof. split; reflexivity. Qed.
Lemma val_inf : val (S754_infinity false) = BIG.
Proof. reflexivity. Qed.

(** ** Addition of non-negative numbers. *)
Lemma clip_rnd_BIG r : BIG <= r -> clip (rnd r) = BIG.
Proof.
  intros H. pose proof BIG_gt0. assert (BIG <= rnd r) by (rewrite <- rnd_BIG; now apply rnd_le).
  unfold clip. rewrite Rmin_right by lra. apply Rmax_right. lra.
Qed.

Lemma add_fin_sign x y : fin32 x -> fin32 y -> sign_SF x = false -> sign_SF y = false ->
  sign_SF (SFadd prec32 emax32 x y) = false.
Proof.
  intros Hx Hy Sx Sy.
  destruct (to_B x (proj1 Hx)) as (bx & Ex & F1 & R1 & S1 & _).
  destruct (to_B y (proj1 Hy)) as (b_y & Ey & F2 & R2 & S2 & _).
  rewrite <- Ex, <- Ey, SFadd_B.
  pose proof (Bplus_correct prec32 emax32 _ _ mode_NE bx b_y (F1 Hx) (F2 Hy)) as C.
  destruct (Rlt_bool _ _).
  - destruct C as (_ & Fi & C). rewrite S1, S2, Sx, Sy, R1, R2 in C by auto. cbn in C.
    assert (0 <= val x) by now apply sign_val_pos. assert (0 <= val y) by now apply sign_val_pos.
    assert (S : Bsign (Bplus mode_NE bx b_y) = false).
    { rewrite C. case Rcompare_spec; intros; auto. lra. }
    destruct (Bplus mode_NE bx b_y); cbn in *; auto.
  - destruct C as (C & _). rewrite C, S1, Sx. reflexivity.
Qed.

Lemma add_pos32 x y : pos32 x -> pos32 y ->
  pos32 (SFadd prec32 emax32 x y) /\
  val (SFadd prec32 emax32 x y) = clip (rnd (val x + val y)).
Proof.
  intros Px Py. pose proof (val_pos _ Px). pose proof (val_pos _ Py). pose proof BIG_gt0.
  destruct (pos_cases x Px) as [(Fx & _ & Sx)| ->]; destruct (pos_cases y Py) as [(Fy & _ & Sy)| ->].
  - destruct (add_rnd x y Fx Fy) as (O & V). split; auto.
    apply pos_sign; auto. now apply add_fin_sign.
  - destruct x; cbn in Sx; subst; try (destruct Fx; contradiction); (split; [exact pos_inf32|]);
      rewrite clip_rnd_BIG; auto; rewrite val_inf; lra.
  - destruct y; cbn in Sy; subst; try (destruct Fy; contradiction); (split; [exact pos_inf32|]);
      rewrite clip_rnd_BIG; auto; rewrite val_inf; lra.
  - split; [exact pos_inf32|]. rewrite clip_rnd_BIG; auto; rewrite val_inf; lra.
Qed.

(** ** Products. *)
Lemma mul_fin_sign x y : fin32 x -> fin32 y ->
  sign_SF (SFmul prec32 emax32 x y) = xorb (sign_SF x) (sign_SF y).
Proof.
  intros Hx Hy.
  destruct (to_B x (proj1 Hx)) as (bx & Ex & F1 & R1 & S1 & _).
  destruct (to_B y (proj1 Hy)) as (b_y & Ey & F2 & R2 & S2 & _).
  rewrite <- Ex, <- Ey, SFmul_B. rewrite Ex, Ey, <- S1, <- S2.
  pose proof (Bmult_correct prec32 emax32 _ _ mode_NE bx b_y) as C.
  destruct (Rlt_bool _ _).
  - destruct C as (_ & Fi & C). rewrite (F1 Hx), (F2 Hy) in Fi.
    rewrite <- C.
    + destruct (Bmult mode_NE bx b_y); cbn in *; congruence.
    + destruct (Bmult mode_NE bx b_y); cbn in *; congruence.
  - rewrite C. unfold binary_overflow, overflow_to_inf. cbn. reflexivity.
Qed.

Lemma mul_pos_fin x y : fin32 x -> fin32 y -> pos32 x -> pos32 y ->
  pos32 (SFmul prec32 emax32 x y) /\ val (SFmul prec32 emax32 x y) = clip (rnd (val x * val y)).
Proof.
  intros Fx Fy Px Py. destruct (mul_rnd x y Fx Fy) as (O & V). split; auto.
  apply pos_sign; auto. rewrite mul_fin_sign by auto.
  destruct (pos_cases x Px) as [(_ & _ & ->)| ->]; [|destruct Fx; contradiction].
  destruct (pos_cases y Py) as [(_ & _ & ->)| ->]; [|destruct Fy; contradiction]. reflexivity.
Qed.

Lemma sq_val d : ok32 d ->
  pos32 (SFmul prec32 emax32 d d) /\ val (SFmul prec32 emax32 d d) = clip (rnd (val d * val d)).
Proof.
  intros O. pose proof BIG_gt0. assert (1 <= BIG) by (apply (bpow_le radix2 0 128); lia).
  assert (fin32 d \/ d = S754_infinity true \/ d = S754_infinity false) as C.
  { destruct O as (V & K). destruct d as [| [|] | |]; auto; try (left; split; cbn; auto; fail); congruence. }
  destruct C as [F|[->| ->]].
  - destruct (mul_rnd d d F F) as (O' & V). split; auto. apply pos_sign; auto.
    rewrite mul_fin_sign by auto. apply xorb_nilpotent.
  - split; [exact pos_inf32|]. rewrite clip_rnd_BIG; [reflexivity|]. cbn. nra.
  - split; [exact pos_inf32|]. rewrite clip_rnd_BIG; [reflexivity|]. cbn. nra.
Qed.

(** ** Squared differences. *)
Lemma sqd_val x y : fin32 x -> fin32 y ->
  pos32 (sqd B32 x y) /\
  val (sqd B32 x y) = clip (rnd (clip (rnd (val x - val y)) * clip (rnd (val x - val y)))).
Proof.
  intros Fx Fy. unfold sqd. cbn [nsub nmul B32].
  destruct (sub_rnd x y Fx Fy) as (O & V). destruct (sq_val _ O) as (P & W).
  split; auto. rewrite W, V. reflexivity.
Qed.

(** ** Integers. *)
Lemma ofZ_pos k : (0 < k <= 2 ^ 31)%Z ->
  fin32 (f32_ofZ k) /\ pos32 (f32_ofZ k) /\ val (f32_ofZ k) = rnd (IZR k) /\ 1 <= rnd (IZR k).
Proof.
  intros H. destruct (ofZ_rnd k) as (O & V).
  assert (L : 1 <= rnd (IZR k)).
  { rewrite <- (rnd_id 1); [|exact (format_bpow 0 ltac:(lia))]. apply rnd_le. apply IZR_le. lia. }
  assert (U : rnd (IZR k) <= bpow radix2 31).
  { rewrite <- (rnd_id (bpow radix2 31)); [|apply format_bpow; lia]. apply rnd_le.
    change (bpow radix2 31) with (IZR (2 ^ 31)). apply IZR_le. lia. }
  assert (B : bpow radix2 31 < BIG) by (apply bpow_lt; lia).
  pose proof BIG_gt0. rewrite clip_id in V by lra.
  assert (F : fin32 (f32_ofZ k)) by (apply fin_val_bound; auto; rewrite V; lra).
  split; [exact F|]. split; [|auto]. split; [exact (proj1 F)|]. destruct F as (F & K).
  destruct (f32_ofZ k) as [| | | [|]]; try contradiction; auto.
  - cbn [val] in V. exfalso. lra.
  - cbn [val cond_Zopp Z.opp] in V. assert (F2R (Float radix2 (Z.neg m) e) < 0) by now apply F2R_lt_0.
    exfalso. lra.
Qed.

(** ** Division by a positive integer, square root. *)
Lemma div_fin_sign x y : fin32 x -> fin32 y -> val y <> 0 ->
  sign_SF (SFdiv prec32 emax32 x y) = xorb (sign_SF x) (sign_SF y).
Proof.
  intros Hx Hy Hz.
  destruct (to_B x (proj1 Hx)) as (bx & Ex & F1 & R1 & S1 & _).
  destruct (to_B y (proj1 Hy)) as (b_y & Ey & F2 & R2 & S2 & _).
  rewrite <- Ex, <- Ey, SFdiv_B. rewrite Ex, Ey, <- S1, <- S2.
  pose proof (Bdiv_correct prec32 emax32 _ _ mode_NE bx b_y) as C.
  rewrite R2 in C by auto. specialize (C Hz).
  destruct (Rlt_bool _ _).
  - destruct C as (_ & Fi & C). rewrite (F1 Hx) in Fi.
    rewrite <- C.
    + destruct (Bdiv mode_NE bx b_y); cbn in *; congruence.
    + destruct (Bdiv mode_NE bx b_y); cbn in *; congruence.
  - rewrite C. reflexivity.
Qed.

Lemma div_pos x k : fin32 x -> pos32 x -> (0 < k <= 2 ^ 31)%Z ->
  fin32 (SFdiv prec32 emax32 x (f32_ofZ k)) /\ pos32 (SFdiv prec32 emax32 x (f32_ofZ k)) /\
  val (SFdiv prec32 emax32 x (f32_ofZ k)) = rnd (val x / rnd (IZR k)).
Proof.
  intros Fx Px Hk. destruct (ofZ_pos k Hk) as (Fk & Pk & Vk & K).
  destruct (div_rnd x _ Fx Fk) as (O & V); [lra|]. rewrite Vk in V.
  pose proof (val_pos _ Px). pose proof (val_fin_bound _ Fx). pose proof BIG_gt0.
  assert (0 < / rnd (IZR k) <= 1).
  { split; [apply Rinv_0_lt_compat; lra|]. rewrite <- Rinv_1. apply Rinv_le; lra. }
  assert (0 <= val x / rnd (IZR k) <= val x) by (unfold Rdiv; nra).
  assert (0 <= rnd (val x / rnd (IZR k)) <= val x).
  { split; [apply rnd_pos; lra|]. rewrite <- (rnd_val x Fx) at 2. apply rnd_le; lra. }
  rewrite clip_id in V by lra. split; [|split]; auto.
  - apply fin_val_bound; auto. lra.
  - apply pos_sign; auto. rewrite div_fin_sign by (auto; lra).
    destruct (pos_cases x Px) as [(_ & _ & ->)| ->]; [|destruct Fx; contradiction].
    destruct (pos_cases _ Pk) as [(_ & _ & ->)| E]; [reflexivity|].
    destruct Fk as (_ & Fk). rewrite E in Fk. contradiction.
Qed.

Lemma klen31 k : klen k -> (0 < k <= 2 ^ 31)%Z /\ (0 < 2 * k <= 2 ^ 31)%Z.
Proof. unfold klen. lia. Qed.

Lemma div_inf k : (0 < k <= 2 ^ 31)%Z ->
  SFdiv prec32 emax32 (S754_infinity false) (f32_ofZ k) = S754_infinity false.
Proof.
  intros Hk. destruct (ofZ_pos k Hk) as (Fk & (_ & Pk) & Vk & K).
  destruct Fk as (_ & Fk).
  destruct (f32_ofZ k); try contradiction; rewrite Pk; reflexivity.
Qed.

Lemma norm_dtw_fin x k : klen k -> fin32 x -> pos32 x ->
  fin32 (euc_norm_dtw B32 x k) /\ pos32 (euc_norm_dtw B32 x k) /\
  val (euc_norm_dtw B32 x k) = rnd (rnd (sqrt (val x)) / rnd (IZR (2 * k))).
Proof.
  intros Hk Fx Px. destruct (klen31 k Hk) as (_ & K). unfold euc_norm_dtw. cbn [ndiv nsqrt nofZ B32].
  destruct (sqrt_rnd x Fx Px) as (F1 & P1 & V1).
  destruct (div_pos _ (2 * k) F1 P1 K) as (F2 & P2 & V2). rewrite V1 in V2. auto.
Qed.
Lemma norm_fin x k : klen k -> fin32 x -> pos32 x ->
  fin32 (euc_norm B32 x k) /\ pos32 (euc_norm B32 x k) /\
  val (euc_norm B32 x k) = rnd (sqrt (rnd (val x / rnd (IZR k)))).
Proof.
  intros Hk Fx Px. destruct (klen31 k Hk) as (K & _). unfold euc_norm. cbn [ndiv nsqrt nofZ B32].
  destruct (div_pos _ k Fx Px K) as (F2 & P2 & V2).
  destruct (sqrt_rnd _ F2 P2) as (F1 & P1 & V1). rewrite V2 in V1. auto.
Qed.
Lemma norm_dtw_inf k : klen k -> euc_norm_dtw B32 (S754_infinity false) k = S754_infinity false.
Proof.
  intros Hk. destruct (klen31 k Hk) as (_ & K). unfold euc_norm_dtw. cbn [ndiv nsqrt nofZ B32].
  cbn [SFsqrt]. now apply div_inf.
Qed.
Lemma norm_inf k : klen k -> euc_norm B32 (S754_infinity false) k = S754_infinity false.
Proof.
  intros Hk. destruct (klen31 k Hk) as (K & _). unfold euc_norm. cbn [ndiv nsqrt nofZ B32].
  now rewrite div_inf.
Qed.

(** ** Squared dropouts. *)
Lemma mul_inf y : fin32 y -> pos32 y -> 0 < val y ->
  SFmul prec32 emax32 (S754_infinity false) y = S754_infinity false.
Proof.
  intros (_ & F) (_ & P) V. destruct y; try contradiction; cbn in *; subst; auto. lra.
Qed.
Lemma mul_pos_int x k : pos32 x -> (0 < k <= 2 ^ 31)%Z ->
  pos32 (SFmul prec32 emax32 x (f32_ofZ k)) /\
  (x = S754_infinity false -> SFmul prec32 emax32 x (f32_ofZ k) = S754_infinity false).
Proof.
  intros Px Hk. destruct (ofZ_pos k Hk) as (Fk & Pk & Vk & K).
  destruct (pos_cases x Px) as [(Fx & _ & _)| ->].
  - split.
    + now apply mul_pos_fin.
    + intros ->. destruct Fx; contradiction.
  - rewrite mul_inf by (auto; lra). split; auto.
Qed.

Lemma mul_mono_val a b c d : 0 <= a <= c -> 0 <= b <= d ->
  clip (rnd (a * b)) <= clip (rnd (c * d)).
Proof. intros. apply clip_le, rnd_le. nra. Qed.

Lemma sqd_mono_val x y u v : fin32 x -> fin32 y -> fin32 u -> fin32 v ->
  Rabs (val x - val y) <= Rabs (val u - val v) -> val (sqd B32 x y) <= val (sqd B32 u v).
Proof.
  intros Fx Fy Fu Fv H.
  destruct (sqd_val x y Fx Fy) as (_ & ->). destruct (sqd_val u v Fu Fv) as (_ & ->).
  assert (A : forall r, clip (rnd r) * clip (rnd r) = clip (rnd (Rabs r)) * clip (rnd (Rabs r))).
  { intros r. unfold Rabs. destruct (Rcase_abs r); auto. rewrite rnd_opp, clip_opp. ring. }
  rewrite (A (val x - val y)), (A (val u - val v)).
  apply mul_mono_val; (split; [apply clip_pos, rnd_pos, Rabs_pos|apply clip_le, rnd_le; lra]).
Qed.

Lemma b32_cost : CostLaws B32 fin32 pos32.
Proof.
  split.
  - apply (ord_weaken32 _ _ fin_ok f32_ord).
  - apply (ord_weaken32 _ _ pos_ok f32_ord).
  - intros x y Px Py. rewrite !le32 by auto using pos_ok. intros. apply val_inj; auto. lra.
  - exact pos_inf32.
  - intros x Px. rewrite le32 by auto using pos_ok, pos_inf32. cbn [ninf B32]. rewrite val_inf.
    apply val_bound, pos_ok, Px.
  - exact pos_zero32.
  - intros x Px. rewrite le32 by auto using pos_ok, pos_zero32. now apply val_pos.
  - reflexivity.
  - intros x y Fx Fy. now apply sqd_val.
  - intros x y Fx Fy. apply val_inj; try now apply sqd_val.
    apply Rle_antisym; apply sqd_mono_val; auto; rewrite Rabs_minus_sym; lra.
  - intros x Fx. apply val_inj; [now apply sqd_val|exact pos_zero32|].
    destruct (sqd_val x x Fx Fx) as (_ & ->). pose proof BIG_gt0.
    rewrite Rminus_diag_eq by reflexivity. rewrite rnd_0, (clip_id 0), Rmult_0_l, rnd_0, (clip_id 0) by lra.
    reflexivity.
  - intros b u c Fb Fu Fc A B. apply lt32 in A; auto using fin_ok. apply le32 in B; auto using fin_ok.
    apply le32; try (apply pos_ok; now apply sqd_val). apply sqd_mono_val; auto.
    rewrite !Rabs_pos_eq by lra. lra.
  - intros b l c Fb Fl Fc A B. apply lt32 in A; auto using fin_ok. apply le32 in B; auto using fin_ok.
    apply le32; try (apply pos_ok; now apply sqd_val). apply sqd_mono_val; auto.
    rewrite !Rabs_left1 by lra. lra.
  - intros x y Px Py. now apply add_pos32.
  - intros x x' y y' Px Px' Py Py' A B. cbn [nadd B32].
    destruct (add_pos32 x y Px Py) as (P1 & V1). destruct (add_pos32 x' y' Px' Py') as (P2 & V2).
    apply le32 in A; auto using pos_ok. apply le32 in B; auto using pos_ok.
    apply le32; auto using pos_ok. rewrite V1, V2. apply clip_le, rnd_le. lra.
  - intros x Px. rewrite zero32. cbn [nadd B32].
    destruct (pos_cases x Px) as [(Fx & _ & S)| ->]; [|reflexivity].
    destruct x; cbn in *; subst; auto.
  - intros x Px. rewrite zero32. cbn [nadd B32].
    destruct (pos_cases x Px) as [(Fx & _ & S)| ->]; [|reflexivity].
    destruct x; cbn in *; subst; auto.
  - intros x k Hk Px. destruct (pos_cases x Px) as [(Fx & _ & S)| ->].
    + now apply norm_dtw_fin.
    + rewrite norm_dtw_inf by auto. exact pos_inf32.
  - intros x y k Hk Px Py H. apply le32 in H; auto using pos_ok.
    assert (K : 1 <= rnd (IZR (2 * k))) by (apply ofZ_pos; unfold klen in Hk; lia).
    destruct (pos_cases y Py) as [(Fy & _ & Sy)| ->].
    + destruct (pos_cases x Px) as [(Fx & _ & Sx)| ->].
      * destruct (norm_dtw_fin x k Hk Fx Px) as (F1 & P1 & V1).
        destruct (norm_dtw_fin y k Hk Fy Py) as (F2 & P2 & V2).
        apply le32; auto using pos_ok. rewrite V1, V2. apply rnd_le.
        unfold Rdiv. apply Rmult_le_compat_r; [apply Rlt_le, Rinv_0_lt_compat; lra|].
        apply rnd_le. now apply sqrt_le_1_alt.
      * rewrite val_inf in H. pose proof (val_fin_bound _ Fy). lra.
    + rewrite norm_dtw_inf by auto. destruct (pos_cases x Px) as [(Fx & _ & Sx)| ->].
      * destruct (norm_dtw_fin x k Hk Fx Px) as (F1 & P1 & V1).
        apply le32; auto using pos_ok, pos_inf32. rewrite val_inf. apply val_bound, pos_ok; auto.
      * rewrite norm_dtw_inf by auto. reflexivity.
  - intros. now apply norm_dtw_inf.
  - intros k Hk. rewrite zero32. destruct (norm_dtw_fin (S754_zero false) k Hk) as (F & P & V).
    + split; cbn; auto.
    + exact pos_zero32.
    + apply val_inj; auto using pos_zero32. rewrite V. cbn [val]. rewrite sqrt_0, rnd_0.
      unfold Rdiv. rewrite Rmult_0_l. apply rnd_0.
  - intros x k Hk Px H. apply lt32 in H; auto using pos_ok, pos_inf32. cbn [ninf B32] in *. rewrite val_inf in H.
    destruct (pos_cases x Px) as [(Fx & _ & S)| ->]; [|rewrite val_inf in H; lra].
    destruct (norm_dtw_fin x k Hk Fx Px) as (F & P & _).
    apply lt32; auto using pos_ok, pos_inf32. rewrite val_inf. now apply val_fin_bound.
  - intros x k Hk Px. destruct (pos_cases x Px) as [(Fx & _ & S)| ->].
    + now apply norm_fin.
    + rewrite norm_inf by auto. exact pos_inf32.
  - intros x y k Hk Px Py H. apply le32 in H; auto using pos_ok.
    assert (K : 1 <= rnd (IZR k)) by (apply ofZ_pos; unfold klen in Hk; lia).
    destruct (pos_cases y Py) as [(Fy & _ & Sy)| ->].
    + destruct (pos_cases x Px) as [(Fx & _ & Sx)| ->].
      * destruct (norm_fin x k Hk Fx Px) as (F1 & P1 & V1).
        destruct (norm_fin y k Hk Fy Py) as (F2 & P2 & V2).
        apply le32; auto using pos_ok. rewrite V1, V2. apply rnd_le. apply sqrt_le_1_alt.
        apply rnd_le. unfold Rdiv. apply Rmult_le_compat_r; [apply Rlt_le, Rinv_0_lt_compat; lra|lra].
      * rewrite val_inf in H. pose proof (val_fin_bound _ Fy). lra.
    + rewrite norm_inf by auto. destruct (pos_cases x Px) as [(Fx & _ & Sx)| ->].
      * destruct (norm_fin x k Hk Fx Px) as (F1 & P1 & V1).
        apply le32; auto using pos_ok, pos_inf32. rewrite val_inf. apply val_bound, pos_ok; auto.
      * rewrite norm_inf by auto. reflexivity.
  - intros. now apply norm_inf.
  - intros k Hk. rewrite zero32. destruct (norm_fin (S754_zero false) k Hk) as (F & P & V).
    + split; cbn; auto.
    + exact pos_zero32.
    + apply val_inj; auto using pos_zero32. rewrite V. cbn [val]. unfold Rdiv. rewrite Rmult_0_l, rnd_0, sqrt_0.
      apply rnd_0.
  - intros x k Hk Px H. apply lt32 in H; auto using pos_ok, pos_inf32. cbn [ninf B32] in *. rewrite val_inf in H.
    destruct (pos_cases x Px) as [(Fx & _ & S)| ->]; [|rewrite val_inf in H; lra].
    destruct (norm_fin x k Hk Fx Px) as (F & P & _).
    apply lt32; auto using pos_ok, pos_inf32. rewrite val_inf. now apply val_fin_bound.
  - intros d k Hk Pd. destruct (klen31 k Hk) as (K & _). unfold euc_inorm_dtw. cbn [nmul nofZ B32].
    apply sq_val, pos_ok. apply mul_pos_int; auto. apply mul_pos_int; auto. lia.
  - intros k Hk. destruct (klen31 k Hk) as (K & _). unfold euc_inorm_dtw. cbn [nmul nofZ B32 ninf].
    change (SFmul prec32 emax32 (S754_infinity false) (f32_ofZ 2)) with (S754_infinity false).
    rewrite (proj2 (mul_pos_int (S754_infinity false) k pos_inf32 K) eq_refl). reflexivity.
  - intros d k Hk Pd. destruct (klen31 k Hk) as (K & _). unfold euc_inorm. cbn [nmul nofZ B32].
    apply mul_pos_int; auto. apply sq_val, pos_ok; auto.
  - intros k Hk. destruct (klen31 k Hk) as (K & _). unfold euc_inorm. cbn [nmul nofZ B32 ninf].
    change (SFmul prec32 emax32 (S754_infinity false) (S754_infinity false)) with (S754_infinity false).
    now apply mul_pos_int; auto using pos_inf32.
Qed.

(** ** The values of the single-precision build. *)
(** Finite floats; non-negative floats (not -0) and infinity. *)
Definition finS (v : mixed) : Prop := match v with Sg x => fin32 x | _ => False end.
Definition posS (v : mixed) : Prop := match v with Sg x => pos32 x | _ => False end.

Lemma ofZ_to32 k : to32 (nofZ F32 k) = f32_ofZ k.
Proof. cbn [nofZ F32]. destruct (Z.eqb_spec k 0) as [->|]; reflexivity. Qed.
Lemma ofZ_narrow v k : wide (Sg v) (nofZ F32 k) = false.
Proof. cbn [nofZ F32]. destruct (Z.eqb_spec k 0) as [->|]; reflexivity. Qed.
Lemma mul_ofZ x k : nmul F32 (Sg x) (nofZ F32 k) = Sg (nmul B32 x (f32_ofZ k)).
Proof. cbn [nmul F32]. unfold arith. now rewrite ofZ_narrow, ofZ_to32. Qed.
Lemma div_ofZ x k : ndiv F32 (Sg x) (nofZ F32 k) = Sg (ndiv B32 x (f32_ofZ k)).
Proof. cbn [ndiv F32]. unfold arith. now rewrite ofZ_narrow, ofZ_to32. Qed.
Lemma sqd_Sg x y : sqd F32 (Sg x) (Sg y) = Sg (sqd B32 x y).
Proof. reflexivity. Qed.
Lemma norm_Sg x k : euc_norm F32 (Sg x) k = Sg (euc_norm B32 x k).
Proof. unfold euc_norm. rewrite div_ofZ. reflexivity. Qed.
Lemma ndtw_Sg x k : euc_norm_dtw F32 (Sg x) k = Sg (euc_norm_dtw B32 x k).
Proof. unfold euc_norm_dtw. cbn [nsqrt F32 to32]. apply div_ofZ. Qed.
Lemma inorm_Sg x k : euc_inorm F32 (Sg x) k = Sg (euc_inorm B32 x k).
Proof. unfold euc_inorm. change (nmul F32 (Sg x) (Sg x)) with (Sg (nmul B32 x x)). apply mul_ofZ. Qed.
Lemma idtw_Sg x k : euc_inorm_dtw F32 (Sg x) k = Sg (euc_inorm_dtw B32 x k).
Proof. unfold euc_inorm_dtw. rewrite !mul_ofZ. reflexivity. Qed.

Lemma ord_Sg ok : OrdLaws B32 ok -> OrdLaws F32 (fun v => match v with Sg x => ok x | _ => False end).
Proof.
  intros [A B]. split; unfold lt, le in *.
  - intros [x|x|x] [y|y|y] Hx Hy; try contradiction. apply (A x y Hx Hy).
  - intros [x|x|x] [y|y|y] [z|z|z] Hx Hy Hz; try contradiction. apply (B x y z Hx Hy Hz).
Qed.

Ltac floats := repeat match goal with
  | H : finS ?v |- _ => is_var v; destruct v; cbn [finS] in H; try contradiction
  | H : posS ?v |- _ => is_var v; destruct v; cbn [posS] in H; try contradiction
  end.
Lemma f32_cost : CostLaws F32 finS posS.
Proof.
  pose proof b32_cost as L.
  split; intros; floats; rewrite ?sqd_Sg, ?norm_Sg, ?ndtw_Sg, ?inorm_Sg, ?idtw_Sg in *.
  - apply (ord_Sg _ (c_dat_ord _ _ _ L)).
  - apply (ord_Sg _ (c_pos_ord _ _ _ L)).
  - f_equal. now apply (c_antisym _ _ _ L).
  - exact (c_pos_inf _ _ _ L).
  - now apply (c_le_inf _ _ _ L).
  - exact (c_pos_0 _ _ _ L).
  - now apply (c_0_le _ _ _ L).
  - exact (c_0_lt_inf _ _ _ L).
  - now apply (c_sqd_pos _ _ _ L).
  - f_equal. now apply (c_sqd_sym _ _ _ L).
  - change (nzero F32) with (Sg (nzero B32)). f_equal. now apply (c_sqd_diag _ _ _ L).
  - exact (c_sqd_up _ _ _ L _ _ _ H H0 H1 H2 H3).
  - exact (c_sqd_dn _ _ _ L _ _ _ H H0 H1 H2 H3).
  - now apply (c_add_pos _ _ _ L).
  - exact (c_add_mono _ _ _ L _ _ _ _ H H0 H1 H2 H3 H4).
  - change (Sg (nadd B32 (nzero B32) x) = Sg x). f_equal. now apply (c_0_add _ _ _ L).
  - change (Sg (nadd B32 x (nzero B32)) = Sg x). f_equal. now apply (c_add_0 _ _ _ L).
  - now apply (c_ndtw_pos _ _ _ L).
  - now apply (c_ndtw_mono _ _ _ L).
  - cbn [ninf F32]. rewrite ndtw_Sg. f_equal. now apply (c_ndtw_inf _ _ _ L).
  - change (nzero F32) with (Sg (nzero B32)). rewrite ndtw_Sg. f_equal. now apply (c_ndtw_0 _ _ _ L).
  - now apply (c_ndtw_fin _ _ _ L).
  - now apply (c_norm_pos _ _ _ L).
  - now apply (c_norm_mono _ _ _ L).
  - cbn [ninf F32]. rewrite norm_Sg. f_equal. now apply (c_norm_inf _ _ _ L).
  - change (nzero F32) with (Sg (nzero B32)). rewrite norm_Sg. f_equal. now apply (c_norm_0 _ _ _ L).
  - now apply (c_norm_fin _ _ _ L).
  - now apply (c_idtw_pos _ _ _ L).
  - cbn [ninf F32]. rewrite idtw_Sg. f_equal. now apply (c_idtw_inf _ _ _ L).
  - now apply (c_inorm_pos _ _ _ L).
  - cbn [ninf F32]. rewrite inorm_Sg. f_equal. now apply (c_inorm_inf _ _ _ L).
Qed.

(** The band is computed in double. *)
Lemma band_S x k : (k <> 0)%Z ->
  calculateWarpingBandSize F32 (Db x) k = calculateWarpingBandSize F64 x k.
Proof.
  intros H. unfold calculateWarpingBandSize, floor_int. cbn [nofZ F32].
  destruct (Z.eqb_spec k 0); [contradiction|]. reflexivity.
Qed.
