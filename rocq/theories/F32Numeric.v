(** * Facts about the distances in binary32: absence of overflow, and how much the rounding of the
    dropout can cost (Numeric.v for binary32). *)
From Coq Require Import ZArith Bool Reals Lra Lia SpecFloat List.
From Flocq Require Import Core BinarySingleNaN.
From Verif Require Import Outcome Num Single Lemire Distance F32Base Laws F32Laws Spec DtwProofs.
From Verif Require Numeric.
Import ListNotations.
Open Scope R_scope.

Lemma bpow2 e : bpow radix2 (e + 1) = 2 * bpow radix2 e.
Proof. rewrite bpow_plus_1. reflexivity. Qed.

(** Integers up to 2^24 are exact. *)
Lemma format_Z z : (Z.abs z <= 2 ^ 24)%Z -> generic_format radix2 fexp32 (IZR z).
Proof.
  intros H. apply (generic_format_FLT radix2 (-149) 24).
  destruct (Z.eq_dec (Z.abs z) (2 ^ 24)) as [E|E].
  - exists (Float radix2 (z / 2 ^ 24) 24); cbn [Fnum Fexp].
    + unfold F2R; cbn [Fnum Fexp]. change (bpow radix2 24) with (IZR (2 ^ 24)).
      rewrite <- mult_IZR. f_equal.
      assert (z = 2 ^ 24 \/ z = - 2 ^ 24)%Z as [-> | ->] by lia; reflexivity.
    + assert (z = 2 ^ 24 \/ z = - 2 ^ 24)%Z as [-> | ->] by lia; cbn; lia.
    + lia.
  - exists (Float radix2 z 0); cbn [Fnum Fexp].
    + unfold F2R; cbn. ring.
    + change (radix2 ^ 24)%Z with (2 ^ 24)%Z. lia.
    + lia.
Qed.

Lemma ofZ_exact z : (Z.abs z <= 2 ^ 24)%Z -> fin32 (f32_ofZ z) /\ val (f32_ofZ z) = IZR z.
Proof.
  intros H. destruct (ofZ_rnd z) as (O & V). rewrite rnd_id in V by now apply format_Z.
  assert (B : - BIG < IZR z < BIG).
  { assert (IZR (2 ^ 24) < BIG).
    { change (IZR (2 ^ 24)) with (bpow radix2 24). apply bpow_lt. lia. }
    assert (IZR (Z.abs z) <= IZR (2 ^ 24)) by now apply IZR_le.
    rewrite abs_IZR in *. apply Rabs_lt_inv. lra. }
  rewrite clip_id in V by lra. split; auto. apply fin_val_bound; auto. now rewrite V.
Qed.
Lemma ofZ_small k : (0 < k <= 2 ^ 24)%Z ->
  fin32 (f32_ofZ k) /\ pos32 (f32_ofZ k) /\ val (f32_ofZ k) = IZR k /\ 0 < IZR k.
Proof.
  intros H. destruct (ofZ_pos k) as (F & P & V & _); [lia|].
  rewrite rnd_id in V by (apply format_Z; lia). repeat split; auto; try apply F; try apply P.
  apply IZR_lt. lia.
Qed.

(** ** binary32: values up to 2^50 and lengths up to 2^20. *)
Definition small32 (x : spec_float) : Prop := fin32 x /\ Rabs (val x) <= bpow radix2 50.

Lemma small_fin x : small32 x -> fin32 x.
Proof. now intros (H & _). Qed.
Lemma at_small a i : Forall small32 a -> small32 (at_ B32 a i).
Proof.
  intros Ha. unfold at_. destruct (Nat.lt_ge_cases (Z.to_nat i) (length a)) as [H|H].
  - rewrite Forall_forall in Ha. apply Ha. now apply nth_In.
  - rewrite nth_overflow by auto. rewrite zero32. split; [now split|]. cbn [val]. rewrite Rabs_R0. apply bpow_ge_0.
Qed.
Lemma rnd_abs_le x e : (-149 <= e)%Z -> Rabs x <= bpow radix2 e -> Rabs (rnd x) <= bpow radix2 e.
Proof.
  intros He H. apply Rabs_le. apply Rabs_le_inv in H.
  rewrite <- (rnd_id (bpow radix2 e)) by now apply format_bpow. rewrite <- rnd_opp.
  split; apply rnd_le; lra.
Qed.
Lemma sqd_small x y : small32 x -> small32 y -> val (sqd B32 x y) <= bpow radix2 102.
Proof.
  intros (Fx & Bx) (Fy & By). destruct (sqd_val x y Fx Fy) as (_ & ->).
  assert (B1 : Rabs (rnd (val x - val y)) <= bpow radix2 51).
  { apply rnd_abs_le; [lia|]. replace (bpow radix2 51) with (bpow radix2 50 + bpow radix2 50).
    - apply Rle_trans with (Rabs (val x) + Rabs (val y)); [|lra].
      unfold Rminus. rewrite <- (Rabs_Ropp (val y)). apply Rabs_triang.
    - change 51%Z with (50 + 1)%Z. rewrite bpow2. lra. }
  assert (C : bpow radix2 51 <= BIG) by (apply bpow_le; lia).
  rewrite (clip_id (rnd (val x - val y))) by (apply Rabs_le_inv in B1; lra).
  assert (B2 : Rabs (rnd (rnd (val x - val y) * rnd (val x - val y))) <= bpow radix2 102).
  { apply rnd_abs_le; [lia|]. rewrite Rabs_mult. change 102%Z with (51 + 51)%Z. rewrite bpow_plus.
    apply Rmult_le_compat; auto using Rabs_pos. }
  assert (D : bpow radix2 102 <= BIG) by (apply bpow_le; lia).
  rewrite clip_id; apply Rabs_le_inv in B2; lra.
Qed.
Lemma format_mult t e : (0 <= t <= 2 ^ 24)%Z -> (0 <= e)%Z -> generic_format radix2 fexp32 (IZR t * bpow radix2 e).
Proof.
  intros Ht He. pose proof (format_Z t) as G. destruct (Z.eq_dec t 0) as [->|Hn].
  - rewrite Rmult_0_l. apply generic_format_0.
  - destruct (Z.eq_dec t (2 ^ 24)) as [->|H24].
    + change (IZR (2 ^ 24)) with (bpow radix2 24). rewrite <- bpow_plus. apply format_bpow. lia.
    + apply (generic_format_FLT radix2 (-149) 24). exists (Float radix2 t e); cbn [Fnum Fexp]; auto; [|lia]. rewrite Z.abs_eq by lia. change (radix2 ^ 24)%Z with (2 ^ 24)%Z. lia.
Qed.
(** After [t] cells the cost is at most [t * 2^102]. *)
Lemma cost_small a b p : Forall small32 a -> Forall small32 b -> (Z.of_nat (length p) <= 2 ^ 21)%Z ->
  pos32 (path_cost B32 a b p) /\ val (path_cost B32 a b p) <= IZR (Z.of_nat (length p)) * bpow radix2 102.
Proof.
  intros Ha Hb. induction p as [|c p IH] using rev_ind; intros Hl.
  - unfold path_cost; cbn [fold_left length]. rewrite zero32. split; [apply pos_zero32|]. cbn [val]. change (Z.of_nat 0) with 0%Z. lra.
  - rewrite app_length in Hl; cbn [length] in Hl. destruct IH as (P & V); [lia|].
    unfold path_cost. rewrite fold_left_app. cbn [fold_left]. fold (path_cost B32 a b p).
    pose proof (at_small a (fst c) Ha) as Sa. pose proof (at_small b (snd c) Hb) as Sb.
    destruct (sqd_val _ _ (small_fin _ Sa) (small_fin _ Sb)) as (Ps & _).
    pose proof (sqd_small _ _ Sa Sb) as Vs.
    destruct (add_pos32 _ _ P Ps) as (P2 & V2). split; [exact P2|].
    cbn [nadd B32]. rewrite V2. rewrite app_length; cbn [length].
    replace (Z.of_nat (length p + 1)) with (Z.of_nat (length p) + 1)%Z by lia.
    set (t := (Z.of_nat (length p) + 1)%Z) in *.
    assert (Ht : (0 <= t <= 2 ^ 24)%Z) by lia.
    assert (B : rnd (val (path_cost B32 a b p) + val (sqd B32 (at_ B32 a (fst c)) (at_ B32 b (snd c)))) <= IZR t * bpow radix2 102).
    { rewrite <- (rnd_id (IZR t * bpow radix2 102)) by (apply format_mult; lia).
      apply rnd_le. unfold t. rewrite plus_IZR. lra. }
    assert (D : IZR t * bpow radix2 102 <= BIG).
    { apply Rle_trans with (IZR (2 ^ 22) * bpow radix2 102).
      - apply Rmult_le_compat_r; [apply bpow_ge_0|]. apply IZR_le. lia.
      - change (IZR (2 ^ 22)) with (bpow radix2 22). rewrite <- bpow_plus. apply bpow_le. lia. }
    pose proof (val_pos _ P). pose proof (val_pos _ Ps). pose proof BIG_gt0.
    assert (0 <= rnd (val (path_cost B32 a b p) + val (sqd B32 (at_ B32 a (fst c)) (at_ B32 b (snd c))))) by (apply rnd_pos; lra).
    rewrite clip_id by lra. exact B.
Qed.
Lemma no_overflow_32 a b r : Forall small32 a -> Forall small32 b ->
  (zlen a <= 2 ^ 20)%Z -> (zlen b <= 2 ^ 20)%Z -> no_overflow B32 a b r.
Proof.
  intros Ha Hb La Lb i j p Hi Hj Hp. pose proof (Numeric.path_length _ _ _ _ Hp) as Hl.
  change (num B32) with spec_float in *. destruct (cost_small a b p Ha Hb) as (P & V); [lia|].
  apply lt32; auto using pos_ok, pos_inf32. cbn [ninf B32]. rewrite val_inf.
  apply Rle_lt_trans with (1 := V).
  apply Rle_lt_trans with (IZR (2 ^ 21) * bpow radix2 102).
  - apply Rmult_le_compat_r; [apply bpow_ge_0|]. apply IZR_le. lia.
  - change (IZR (2 ^ 21)) with (bpow radix2 21). rewrite <- bpow_plus. apply bpow_lt. lia.
Qed.

(** ** The dropout test in binary32: a discarded candidate is at most one unit in the last place below
    the dropout. *)
Lemma gap_rel y d : generic_format radix2 fexp32 y -> generic_format radix2 fexp32 d -> 0 < y < d ->
  y <= d * (1 - bpow radix2 (-24)).
Proof.
  intros Fy Fd (Hy & Hd). set (u := ulp radix2 fexp32 y).
  assert (A : y + u <= d).
  { unfold u. rewrite <- succ_eq_pos by lra. apply succ_le_lt; auto with typeclass_instances. }
  assert (B : y + u <= bpow radix2 (mag radix2 y)).
  { apply id_p_ulp_le_bpow; auto. apply bpow_mag_gt_abs || idtac.
    rewrite <- (Rabs_pos_eq y) at 1 by lra. apply bpow_mag_gt. }
  assert (C : bpow radix2 (mag radix2 y) * bpow radix2 (-24) <= u).
  { rewrite <- bpow_plus. unfold u. rewrite ulp_neq_0 by lra. apply bpow_le.
    unfold cexp, SpecFloat.fexp, SpecFloat.emin, prec32, emax32. lia. }
  assert (D : 0 < bpow radix2 (-24) < 1).
  { split; [apply bpow_gt_0|]. apply (bpow_lt radix2 (-24) 0). lia. }
  nra.
Qed.
Lemma fix_double d k : generic_format radix2 fexp32 d -> Rabs (d * IZR k) <= bpow radix2 (-125) ->
  generic_format radix2 fexp32 (d * IZR k).
Proof.
  intros Fd H. change fexp32 with (FLT_exp (-149) 24) in *.
  apply generic_format_FLT_FIX; [exact eq_refl|exact H|].
  apply generic_format_FIX_FLT in Fd. apply FIX_format_generic in Fd. destruct Fd as [f E1 E2].
  apply generic_format_FIX. exists (Float radix2 (Fnum f * k) (-149)); auto.
  rewrite E1. unfold F2R; cbn [Fnum Fexp]. rewrite E2, mult_IZR. ring.
Qed.
Lemma rnd_rel z : bpow radix2 (-126) <= z -> z * (1 - bpow radix2 (-24)) <= rnd z.
Proof.
  intros Hz. pose proof (bpow_gt_0 radix2 (-126)).
  assert (E : Rabs (rnd z - z) <= / 2 * ulp radix2 fexp32 z) by (apply error_le_half_ulp; auto with typeclass_instances).
  assert (U : ulp radix2 (FLT_exp (-149) 24) z <= Rabs z * bpow radix2 (1 - 24)).
  { apply ulp_FLT_le. rewrite Rabs_pos_eq by lra. exact Hz. }
  change (FLT_exp (-149) 24) with fexp32 in U. rewrite (Rabs_pos_eq z) in U by lra.
  apply Rabs_le_inv in E. replace (bpow radix2 (-24)) with (/ 2 * bpow radix2 (1 - 24)).
  - nra.
  - change (1 - 24)%Z with (-24 + 1)%Z. rewrite bpow2. lra.
Qed.
Lemma scaled y d k : (1 <= k)%Z -> generic_format radix2 fexp32 y -> generic_format radix2 fexp32 d ->
  0 < y < d -> y * IZR k <= rnd (d * IZR k).
Proof.
  intros Hk Fy Fd Hyd. assert (K : 1 <= IZR k) by (apply IZR_le; lia).
  destruct (Rle_dec (bpow radix2 (-126)) (d * IZR k)) as [H|H].
  - apply Rle_trans with (2 := rnd_rel _ H). pose proof (gap_rel y d Fy Fd Hyd). nra.
  - rewrite rnd_id; [nra|]. apply fix_double; auto. rewrite Rabs_pos_eq by nra.
    assert (bpow radix2 (-126) <= bpow radix2 (-125)) by (apply bpow_le; lia). lra.
Qed.
Lemma format_double d : generic_format radix2 fexp32 d -> generic_format radix2 fexp32 (d * 2).
Proof.
  intros Fd. destruct (Req_dec d 0) as [->|Hd]; [rewrite Rmult_0_l; apply generic_format_0|].
  change fexp32 with (FLT_exp (-149) 24) in *.
  apply FLT_format_generic in Fd; [|now unfold Prec_gt_0].
  destruct Fd as [f E1 E2 E3]. apply generic_format_FLT.
  exists (Float radix2 (Fnum f) (Fexp f + 1)); cbn [Fnum Fexp]; auto; [|lia].
  rewrite E1. unfold F2R; cbn [Fnum Fexp]. rewrite bpow2. ring.
Qed.

(** A length converted to float: an integer, and twice it is the conversion of the double length. *)
Lemma rnd_int n : (1 <= n)%Z -> exists z, (1 <= z)%Z /\ rnd (IZR n) = IZR z.
Proof.
  intros Hn. destruct (Z_le_gt_dec n (2 ^ 24)) as [H|H].
  - exists n. split; auto. apply rnd_id, format_Z. lia.
  - assert (L : 1 <= rnd (IZR n)).
    { rewrite <- (rnd_id 1); [|exact (format_bpow 0 ltac:(lia))]. apply rnd_le. apply IZR_le. lia. }
    assert (M : (24 < mag radix2 (IZR n))%Z).
    { apply mag_gt_bpow. change (bpow radix2 24) with (IZR (2 ^ 24)). rewrite Rabs_pos_eq by (apply IZR_le; lia).
      apply IZR_le. lia. }
    assert (E : exists z, rnd (IZR n) = IZR z).
    { unfold rnd, round. set (m := ZnearestE _). set (e := cexp _ _ _).
      assert (He : (0 <= e)%Z).
      { unfold e, cexp, SpecFloat.fexp, SpecFloat.emin, prec32, emax32. lia. }
      exists (m * radix2 ^ e)%Z. unfold F2R. cbn [Fnum Fexp]. rewrite mult_IZR, IZR_Zpower by auto. reflexivity. }
    destruct E as (z & E). exists z. split; auto. rewrite E in L. now apply le_IZR.
Qed.
Lemma rnd_twice n : (1 <= n)%Z -> rnd (IZR (2 * n)) = 2 * rnd (IZR n).
Proof.
  intros Hn. assert (N1 : 1 <= IZR n) by (apply IZR_le; lia).
  assert (M : (0 < mag radix2 (IZR n))%Z).
  { apply mag_gt_bpow. rewrite Rabs_pos_eq by lra. exact N1. }
  assert (E : IZR (2 * n) = IZR n * bpow radix2 1) by (rewrite mult_IZR; change (bpow radix2 1) with 2; ring).
  assert (M2 : mag radix2 (IZR (2 * n)) = (mag radix2 (IZR n) + 1)%Z :> Z).
  { rewrite E. apply mag_mult_bpow. lra. }
  unfold rnd, round. 
  assert (C : cexp radix2 fexp32 (IZR (2 * n)) = (cexp radix2 fexp32 (IZR n) + 1)%Z).
  { unfold cexp. rewrite M2. unfold SpecFloat.fexp, SpecFloat.emin, prec32, emax32. lia. }
  assert (S : scaled_mantissa radix2 fexp32 (IZR (2 * n)) = scaled_mantissa radix2 fexp32 (IZR n)).
  { unfold scaled_mantissa. rewrite C, E, Rmult_assoc, <- bpow_plus. f_equal. f_equal. lia. }
  rewrite S, C. unfold F2R. cbn [Fnum Fexp]. rewrite bpow2. ring.
Qed.

(** The value of the scaled dropout before squaring. *)
Lemma idtw32 d k : klen k -> fin32 d -> pos32 d ->
  exists x, pos32 x /\ val x = clip (rnd (val d * rnd (IZR (2 * k)))) /\ euc_inorm_dtw B32 d k = nmul B32 x x.
Proof.
  intros Hk Fd Pd. exists (nmul B32 (nmul B32 d (nofZ B32 2)) (nofZ B32 k)).
  destruct (ofZ_small 2) as (F2 & P2 & V2 & _); [lia|].
  destruct (ofZ_pos k) as (Fk & Pk & Vk & Kp); [unfold klen in Hk; lia|].
  rewrite rnd_twice by (unfold klen in Hk; lia).
  cbn [nmul nofZ B32].
  destruct (mul_pos_fin d _ Fd F2 Pd P2) as (P3 & V3). rewrite V2 in V3.
  rewrite (rnd_id (val d * 2)) in V3 by (apply format_double, format_val; auto).
  pose proof (val_pos _ Pd) as D0. pose proof BIG_gt0 as HB.
  destruct (pos_cases _ P3) as [(F3 & _ & _)|E3].
  - destruct (mul_pos_fin _ _ F3 Fk P3 Pk) as (P4 & V4). split; [exact P4|]. split; [|reflexivity].
    rewrite V4, Vk, V3. f_equal. f_equal. rewrite clip_id.
    + ring.
    + pose proof (val_fin_bound _ F3) as B. rewrite V3 in B.
      split; [lra|]. destruct (Rle_dec (val d * 2) BIG); auto.
      unfold clip in B. rewrite Rmin_right in B by lra. rewrite Rmax_right in B by lra. lra.
  - rewrite E3 in *. rewrite mul_inf by (auto; rewrite Vk; lra). split; [apply pos_inf32|].
    split.
    2:{ unfold euc_inorm_dtw. cbn [nmul nofZ B32]. rewrite E3, mul_inf by (auto; rewrite Vk; lra). reflexivity. }
    rewrite val_inf in *. symmetry. apply clip_rnd_BIG.
    assert (BIG <= val d * 2).
    { destruct (Rle_dec BIG (val d * 2)); auto. rewrite clip_id in V3 by lra. lra. }
    nra.
Qed.

Lemma drop_margin32 d C k : klen k -> pos32 d -> pos32 C -> lt B32 (euc_inorm_dtw B32 d k) C ->
  forall y, fin32 y -> lt B32 y d -> le B32 y (euc_norm_dtw B32 C k).
Proof.
  intros Hk Pd PC Hlt y Fy Hy. pose proof BIG_gt0 as HB.
  destruct (pos_cases C PC) as [(FC & _ & _)| ->].
  2:{ rewrite norm_dtw_inf by auto. apply le32; auto using fin_ok, pos_ok, pos_inf32.
      rewrite val_inf. pose proof (val_fin_bound _ Fy). lra. }
  destruct (norm_dtw_fin C k Hk FC PC) as (FW & PW & VW).
  destruct (rnd_int (2 * k)) as (z & Hz & Ez); [unfold klen in Hk; lia|]. rewrite Ez in VW.
  apply le32; auto using fin_ok. apply lt32 in Hy; auto using fin_ok, pos_ok.
  destruct (Rle_dec (val y) 0) as [Y0|Y0]; [pose proof (val_pos _ PW); lra|].
  destruct (pos_cases d Pd) as [(Fd & _ & _)| ->].
  2:{ change (S754_infinity false) with (ninf B32) in Hlt. rewrite (c_idtw_inf _ _ _ b32_cost) in Hlt by auto.
      exfalso. apply lt32 in Hlt; auto using pos_ok, pos_inf32. cbn [ninf B32] in Hlt. rewrite val_inf in Hlt.
      pose proof (val_fin_bound _ FC). lra. }
  destruct (idtw32 d k Hk Fd Pd) as (x & Px & Vx & Ex). rewrite Ez in Vx. rewrite Ex in Hlt.
  destruct (sq_val x (pos_ok _ Px)) as (Pxx & Vxx).
  cbn [nmul B32] in Hlt. apply lt32 in Hlt; auto using pos_ok. rewrite Vxx in Hlt.
  pose proof (val_fin_bound _ FC) as BC. pose proof (val_pos _ PC) as C0. pose proof (val_pos _ Px) as X0.
  assert (Hxx : val x * val x < val C).
  { apply Rnot_le_lt. intros H. apply (Rlt_irrefl (val C)). apply Rle_lt_trans with (2 := Hlt).
    rewrite <- (clip_id (val C)) by lra. apply clip_le.
    rewrite <- (rnd_id (val C)) by (apply format_val; auto). now apply rnd_le. }
  assert (XB : val x < BIG).
  { apply Rnot_le_lt. intros H. assert (1 <= BIG) by (apply (bpow_le radix2 0 128); lia). nra. }
  assert (Vx' : val x = rnd (val d * IZR z)).
  { rewrite Vx. apply clip_id. pose proof (val_pos _ Pd).
    assert (0 <= rnd (val d * IZR z)). { apply rnd_pos. apply Rmult_le_pos; auto. apply IZR_le. lia. }
    split; [lra|]. destruct (Rle_dec (rnd (val d * IZR z)) BIG) as [HH|HH]; auto.
    rewrite Vx in XB. unfold clip in XB. rewrite Rmin_right in XB by lra. rewrite Rmax_right in XB by lra. lra. }
  assert (KR : 1 <= IZR z) by (apply IZR_le; lia).
  pose proof (scaled (val y) (val d) z Hz (format_val _ Fy) (format_val _ Fd)) as S.
  rewrite <- Vx' in S. specialize (S ltac:(lra)).
  rewrite VW. rewrite <- (rnd_val y Fy). apply rnd_le.
  assert (Q : val x <= rnd (sqrt (val C))).
  { rewrite <- (rnd_id (val x)).
    - apply rnd_le. rewrite <- (sqrt_square (val x)) by auto. apply sqrt_le_1_alt. lra.
    - rewrite Vx'. apply generic_format_round; auto with typeclass_instances. }
  apply Rle_trans with (val x / IZR z).
  - apply Rmult_le_reg_r with (IZR z); [lra|]. unfold Rdiv. rewrite Rmult_assoc, Rinv_l by lra. lra.
  - unfold Rdiv. apply Rmult_le_compat_r; [|auto]. apply Rlt_le, Rinv_0_lt_compat. lra.
Qed.

