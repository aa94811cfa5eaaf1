(** * Facts about the distances that are specific to one arithmetic: absence of overflow, and how much
    the rounding of the dropout can cost. *)
From Coq Require Import ZArith Bool Reals Lra Lia SpecFloat.
From Flocq Require Import Core BinarySingleNaN.
From Coq Require Import List.
From Verif Require Import Outcome Num RX Lemire Distance F64Base Laws F64Laws RXLaws Spec DtwProofs Band.
Import ListNotations.
Open Scope R_scope.

Lemma bpow2 e : bpow radix2 (e + 1) = 2 * bpow radix2 e.
Proof. rewrite bpow_plus_1. reflexivity. Qed.

(** ** Exact arithmetic never overflows. *)
Lemma at_rx a i : Forall dat_rx a -> dat_rx (at_ RX a i).
Proof.
  intros Ha. unfold at_. destruct (Nat.lt_ge_cases (Z.to_nat i) (length a)) as [H|H].
  - rewrite Forall_forall in Ha. apply Ha. now apply nth_In.
  - rewrite nth_overflow by auto. now exists 0.
Qed.
Lemma path_cost_rx a b p : Forall dat_rx a -> Forall dat_rx b -> exists r, path_cost RX a b p = Fin r /\ 0 <= r.
Proof.
  intros Ha Hb. unfold path_cost.
  assert (H : forall s, 0 <= s -> exists r, fold_left (fun acc c => nadd RX acc (sqd RX (at_ RX a (fst c)) (at_ RX b (snd c)))) p (Fin s) = Fin r /\ 0 <= r).
  { induction p as [|c p IH]; intros s Hs; cbn [fold_left]; [eauto|].
    destruct (at_rx a (fst c) Ha) as (x & Ex). destruct (at_rx b (snd c) Hb) as (y & Ey).
    rewrite Ex, Ey. cbn. apply IH. pose proof (Rle_0_sqr (x + - y)) as Q; unfold Rsqr in Q; lra. }
  apply (H 0). lra.
Qed.
Lemma no_overflow_rx a b r : Forall dat_rx a -> Forall dat_rx b -> no_overflow RX a b r.
Proof.
  intros Ha Hb i j p _ _ _. destruct (path_cost_rx a b p Ha Hb) as (x & -> & _). reflexivity.
Qed.

(** ** binary64: values up to 2^500 and lengths up to 2^20. *)
Definition small64 (x : spec_float) : Prop := fin64 x /\ Rabs (val x) <= bpow radix2 500.

Lemma small_fin x : small64 x -> fin64 x.
Proof. now intros (H & _). Qed.
Lemma at_small a i : Forall small64 a -> small64 (at_ F64 a i).
Proof.
  intros Ha. unfold at_. destruct (Nat.lt_ge_cases (Z.to_nat i) (length a)) as [H|H].
  - rewrite Forall_forall in Ha. apply Ha. now apply nth_In.
  - rewrite nth_overflow by auto. rewrite zero64. split; [now split|]. cbn [val]. rewrite Rabs_R0. apply bpow_ge_0.
Qed.
Lemma rnd_abs_le x e : (-1074 <= e)%Z -> Rabs x <= bpow radix2 e -> Rabs (rnd x) <= bpow radix2 e.
Proof.
  intros He H. apply Rabs_le. apply Rabs_le_inv in H.
  rewrite <- (rnd_id (bpow radix2 e)) by now apply format_bpow. rewrite <- rnd_opp.
  split; apply rnd_le; lra.
Qed.
Lemma sqd_small x y : small64 x -> small64 y -> val (sqd F64 x y) <= bpow radix2 1002.
Proof.
  intros (Fx & Bx) (Fy & By). destruct (sqd_val x y Fx Fy) as (_ & ->).
  assert (B1 : Rabs (rnd (val x - val y)) <= bpow radix2 501).
  { apply rnd_abs_le; [lia|]. replace (bpow radix2 501) with (bpow radix2 500 + bpow radix2 500).
    - apply Rle_trans with (Rabs (val x) + Rabs (val y)); [|lra].
      unfold Rminus. rewrite <- (Rabs_Ropp (val y)). apply Rabs_triang.
    - change 501%Z with (500 + 1)%Z. rewrite bpow2. lra. }
  assert (C : bpow radix2 501 <= BIG) by (apply bpow_le; lia).
  rewrite (clip_id (rnd (val x - val y))) by (apply Rabs_le_inv in B1; lra).
  assert (B2 : Rabs (rnd (rnd (val x - val y) * rnd (val x - val y))) <= bpow radix2 1002).
  { apply rnd_abs_le; [lia|]. rewrite Rabs_mult. change 1002%Z with (501 + 501)%Z. rewrite bpow_plus.
    apply Rmult_le_compat; auto using Rabs_pos. }
  assert (D : bpow radix2 1002 <= BIG) by (apply bpow_le; lia).
  rewrite clip_id; apply Rabs_le_inv in B2; lra.
Qed.
Lemma format_mult t e : (0 <= t <= 2 ^ 53)%Z -> (0 <= e)%Z -> generic_format radix2 fexp64 (IZR t * bpow radix2 e).
Proof.
  intros Ht He. pose proof (format_Z t) as G. destruct (Z.eq_dec t 0) as [->|Hn].
  - rewrite Rmult_0_l. apply generic_format_0.
  - destruct (Z.eq_dec t (2 ^ 53)) as [->|H53].
    + change (IZR (2 ^ 53)) with (bpow radix2 53). rewrite <- bpow_plus. apply format_bpow. lia.
    + apply (generic_format_FLT radix2 (-1074) 53). exists (Float radix2 t e); cbn [Fnum Fexp]; auto; [|lia]. rewrite Z.abs_eq by lia. change (radix2 ^ 53)%Z with (2 ^ 53)%Z. lia.
Qed.
(** After [t] cells the cost is at most [t * 2^1002]. *)
Lemma cost_small a b p : Forall small64 a -> Forall small64 b -> (Z.of_nat (length p) <= 2 ^ 21)%Z ->
  pos64 (path_cost F64 a b p) /\ val (path_cost F64 a b p) <= IZR (Z.of_nat (length p)) * bpow radix2 1002.
Proof.
  intros Ha Hb. induction p as [|c p IH] using rev_ind; intros Hl.
  - unfold path_cost; cbn [fold_left length]. rewrite zero64. split; [apply pos_zero64|]. cbn [val]. change (Z.of_nat 0) with 0%Z. lra.
  - rewrite app_length in Hl; cbn [length] in Hl. destruct IH as (P & V); [lia|].
    unfold path_cost. rewrite fold_left_app. cbn [fold_left]. fold (path_cost F64 a b p).
    pose proof (at_small a (fst c) Ha) as Sa. pose proof (at_small b (snd c) Hb) as Sb.
    destruct (sqd_val _ _ (small_fin _ Sa) (small_fin _ Sb)) as (Ps & _).
    pose proof (sqd_small _ _ Sa Sb) as Vs.
    destruct (add_pos64 _ _ P Ps) as (P2 & V2). split; [exact P2|].
    cbn [nadd F64]. rewrite V2. rewrite app_length; cbn [length].
    replace (Z.of_nat (length p + 1)) with (Z.of_nat (length p) + 1)%Z by lia.
    set (t := (Z.of_nat (length p) + 1)%Z) in *.
    assert (Ht : (0 <= t <= 2 ^ 53)%Z) by lia.
    assert (B : rnd (val (path_cost F64 a b p) + val (sqd F64 (at_ F64 a (fst c)) (at_ F64 b (snd c)))) <= IZR t * bpow radix2 1002).
    { rewrite <- (rnd_id (IZR t * bpow radix2 1002)) by (apply format_mult; lia).
      apply rnd_le. unfold t. rewrite plus_IZR. lra. }
    assert (D : IZR t * bpow radix2 1002 <= BIG).
    { apply Rle_trans with (IZR (2 ^ 22) * bpow radix2 1002).
      - apply Rmult_le_compat_r; [apply bpow_ge_0|]. apply IZR_le. lia.
      - change (IZR (2 ^ 22)) with (bpow radix2 22). rewrite <- bpow_plus. apply bpow_le. lia. }
    pose proof (val_pos _ P). pose proof (val_pos _ Ps). pose proof BIG_gt0.
    assert (0 <= rnd (val (path_cost F64 a b p) + val (sqd F64 (at_ F64 a (fst c)) (at_ F64 b (snd c))))) by (apply rnd_pos; lra).
    rewrite clip_id by lra. exact B.
Qed.
Lemma path_length r i j p : warp_path r i j p -> (Z.of_nat (length p) <= i + j + 1)%Z.
Proof.
  induction 1 as [|i j p i' j' Hp IH Hs Hb]; [cbn; lia|].
  rewrite app_length; cbn [length]. destruct Hs as [(-> & ->)|[(-> & ->)|(-> & ->)]]; lia.
Qed.
Lemma no_overflow_64 a b r : Forall small64 a -> Forall small64 b ->
  (zlen a <= 2 ^ 20)%Z -> (zlen b <= 2 ^ 20)%Z -> no_overflow F64 a b r.
Proof.
  intros Ha Hb La Lb i j p Hi Hj Hp. pose proof (path_length _ _ _ _ Hp) as Hl.
  change (num F64) with spec_float in *. destruct (cost_small a b p Ha Hb) as (P & V); [lia|].
  apply lt64; auto using pos_ok, pos_inf64. cbn [ninf F64]. rewrite val_inf.
  apply Rle_lt_trans with (1 := V).
  apply Rle_lt_trans with (IZR (2 ^ 21) * bpow radix2 1002).
  - apply Rmult_le_compat_r; [apply bpow_ge_0|]. apply IZR_le. lia.
  - change (IZR (2 ^ 21)) with (bpow radix2 21). rewrite <- bpow_plus. apply bpow_lt. lia.
Qed.

(** ** The dropout test in binary64: a discarded candidate is at most one unit in the last place below
    the dropout. *)
Lemma gap_rel y d : generic_format radix2 fexp64 y -> generic_format radix2 fexp64 d -> 0 < y < d ->
  y <= d * (1 - bpow radix2 (-53)).
Proof.
  intros Fy Fd (Hy & Hd). set (u := ulp radix2 fexp64 y).
  assert (A : y + u <= d).
  { unfold u. rewrite <- succ_eq_pos by lra. apply succ_le_lt; auto with typeclass_instances. }
  assert (B : y + u <= bpow radix2 (mag radix2 y)).
  { apply id_p_ulp_le_bpow; auto. apply bpow_mag_gt_abs || idtac.
    rewrite <- (Rabs_pos_eq y) at 1 by lra. apply bpow_mag_gt. }
  assert (C : bpow radix2 (mag radix2 y) * bpow radix2 (-53) <= u).
  { rewrite <- bpow_plus. unfold u. rewrite ulp_neq_0 by lra. apply bpow_le.
    unfold cexp, SpecFloat.fexp, SpecFloat.emin, prec64, emax64. lia. }
  assert (D : 0 < bpow radix2 (-53) < 1).
  { split; [apply bpow_gt_0|]. apply (bpow_lt radix2 (-53) 0). lia. }
  nra.
Qed.
Lemma fix_double d k : generic_format radix2 fexp64 d -> Rabs (d * IZR k) <= bpow radix2 (-1021) ->
  generic_format radix2 fexp64 (d * IZR k).
Proof.
  intros Fd H. change fexp64 with (FLT_exp (-1074) 53) in *.
  apply generic_format_FLT_FIX; [exact eq_refl|exact H|].
  apply generic_format_FIX_FLT in Fd. apply FIX_format_generic in Fd. destruct Fd as [f E1 E2].
  apply generic_format_FIX. exists (Float radix2 (Fnum f * k) (-1074)); auto.
  rewrite E1. unfold F2R; cbn [Fnum Fexp]. rewrite E2, mult_IZR. ring.
Qed.
Lemma rnd_rel z : bpow radix2 (-1022) <= z -> z * (1 - bpow radix2 (-53)) <= rnd z.
Proof.
  intros Hz. pose proof (bpow_gt_0 radix2 (-1022)).
  assert (E : Rabs (rnd z - z) <= / 2 * ulp radix2 fexp64 z) by (apply error_le_half_ulp; auto with typeclass_instances).
  assert (U : ulp radix2 (FLT_exp (-1074) 53) z <= Rabs z * bpow radix2 (1 - 53)).
  { apply ulp_FLT_le. rewrite Rabs_pos_eq by lra. exact Hz. }
  change (FLT_exp (-1074) 53) with fexp64 in U. rewrite (Rabs_pos_eq z) in U by lra.
  apply Rabs_le_inv in E. replace (bpow radix2 (-53)) with (/ 2 * bpow radix2 (1 - 53)).
  - nra.
  - change (1 - 53)%Z with (-53 + 1)%Z. rewrite bpow2. lra.
Qed.
Lemma scaled y d k : (1 <= k <= 2 ^ 53)%Z -> generic_format radix2 fexp64 y -> generic_format radix2 fexp64 d ->
  0 < y < d -> y * IZR k <= rnd (d * IZR k).
Proof.
  intros Hk Fy Fd Hyd. assert (K : 1 <= IZR k) by (apply IZR_le; lia).
  destruct (Rle_dec (bpow radix2 (-1022)) (d * IZR k)) as [H|H].
  - apply Rle_trans with (2 := rnd_rel _ H). pose proof (gap_rel y d Fy Fd Hyd). nra.
  - rewrite rnd_id; [nra|]. apply fix_double; auto. rewrite Rabs_pos_eq by nra.
    assert (bpow radix2 (-1022) <= bpow radix2 (-1021)) by (apply bpow_le; lia). lra.
Qed.
Lemma format_double d : generic_format radix2 fexp64 d -> generic_format radix2 fexp64 (d * 2).
Proof.
  intros Fd. destruct (Req_dec d 0) as [->|Hd]; [rewrite Rmult_0_l; apply generic_format_0|].
  change fexp64 with (FLT_exp (-1074) 53) in *.
  apply FLT_format_generic in Fd; [|now unfold Prec_gt_0].
  destruct Fd as [f E1 E2 E3]. apply generic_format_FLT.
  exists (Float radix2 (Fnum f) (Fexp f + 1)); cbn [Fnum Fexp]; auto; [|lia].
  rewrite E1. unfold F2R; cbn [Fnum Fexp]. rewrite bpow2. ring.
Qed.

(** The value of the scaled dropout before squaring. *)
Lemma idtw64 d k : klen k -> fin64 d -> pos64 d ->
  exists x, pos64 x /\ val x = clip (rnd (val d * IZR (2 * k))) /\ euc_inorm_dtw F64 d k = nmul F64 x x.
Proof.
  intros Hk Fd Pd. exists (nmul F64 (nmul F64 d (nofZ F64 2)) (nofZ F64 k)).
  destruct (ofZ_pos 2) as (F2 & P2 & V2 & _); [lia|].
  destruct (klen53 k Hk) as (K1 & K2). destruct (ofZ_pos k K1) as (Fk & Pk & Vk & Kp).
  cbn [nmul nofZ F64].
  destruct (mul_pos_fin d _ Fd F2 Pd P2) as (P3 & V3). rewrite V2 in V3.
  rewrite (rnd_id (val d * 2)) in V3 by (apply format_double, format_val; auto).
  pose proof (val_pos _ Pd) as D0. pose proof BIG_gt0 as HB.
  assert (K1' : 1 <= IZR k) by (apply IZR_le; lia).
  destruct (pos_cases _ P3) as [(F3 & _ & _)|E3].
  - destruct (mul_pos_fin _ _ F3 Fk P3 Pk) as (P4 & V4). split; [exact P4|]. split; [|reflexivity].
    rewrite V4, Vk, V3. f_equal. f_equal. rewrite clip_id.
    + rewrite mult_IZR. ring.
    + pose proof (val_fin_bound _ F3) as B. rewrite V3 in B.
      split; [lra|]. destruct (Rle_dec (val d * 2) BIG); auto.
      unfold clip in B. rewrite Rmin_right in B by lra. rewrite Rmax_right in B by lra. lra.
  - rewrite E3 in *. rewrite mul_inf by (auto; rewrite Vk; auto). split; [apply pos_inf64|].
    split.
    2:{ unfold euc_inorm_dtw. cbn [nmul nofZ F64]. rewrite E3, mul_inf by (auto; rewrite Vk; auto). reflexivity. }
    rewrite val_inf in *. symmetry. apply clip_rnd_BIG.
    assert (BIG <= val d * 2).
    { destruct (Rle_dec BIG (val d * 2)); auto. rewrite clip_id in V3 by lra. lra. }
    rewrite mult_IZR. nra.
Qed.

Lemma drop_margin d C k : klen k -> pos64 d -> pos64 C -> lt F64 (euc_inorm_dtw F64 d k) C ->
  forall y, fin64 y -> lt F64 y d -> le F64 y (euc_norm_dtw F64 C k).
Proof.
  intros Hk Pd PC Hlt y Fy Hy. pose proof BIG_gt0 as HB.
  destruct (pos_cases C PC) as [(FC & _ & _)| ->].
  2:{ rewrite norm_dtw_inf by auto. apply le64; auto using fin_ok, pos_ok, pos_inf64.
      rewrite val_inf. pose proof (val_fin_bound _ Fy). lra. }
  destruct (norm_dtw_fin C k Hk FC PC) as (FW & PW & VW).
  apply le64; auto using fin_ok. apply lt64 in Hy; auto using fin_ok, pos_ok.
  destruct (Rle_dec (val y) 0) as [Y0|Y0]; [pose proof (val_pos _ PW); lra|].
  destruct (pos_cases d Pd) as [(Fd & _ & _)| ->].
  2:{ change (S754_infinity false) with (ninf F64) in Hlt. rewrite (c_idtw_inf _ _ _ f64_cost) in Hlt by auto.
      exfalso. apply lt64 in Hlt; auto using pos_ok, pos_inf64. cbn [ninf F64] in Hlt. rewrite val_inf in Hlt.
      pose proof (val_fin_bound _ FC). lra. }
  destruct (idtw64 d k Hk Fd Pd) as (x & Px & Vx & Ex). rewrite Ex in Hlt.
  destruct (sq_val x (pos_ok _ Px)) as (Pxx & Vxx).
  cbn [nmul F64] in Hlt. apply lt64 in Hlt; auto using pos_ok. rewrite Vxx in Hlt.
  pose proof (val_fin_bound _ FC) as BC. pose proof (val_pos _ PC) as C0. pose proof (val_pos _ Px) as X0.
  assert (Hxx : val x * val x < val C).
  { apply Rnot_le_lt. intros H. apply (Rlt_irrefl (val C)). apply Rle_lt_trans with (2 := Hlt).
    rewrite <- (clip_id (val C)) by lra. apply clip_le.
    rewrite <- (rnd_id (val C)) by (apply format_val; auto). now apply rnd_le. }
  assert (XB : val x < BIG).
  { apply Rnot_le_lt. intros H. assert (1 <= BIG) by (apply (bpow_le radix2 0 1024); lia). nra. }
  assert (Vx' : val x = rnd (val d * IZR (2 * k))).
  { rewrite Vx. apply clip_id. pose proof (val_pos _ Pd).
    assert (0 <= rnd (val d * IZR (2 * k))). { apply rnd_pos. apply Rmult_le_pos; auto. apply IZR_le. unfold klen in Hk. lia. }
    split; [lra|]. destruct (Rle_dec (rnd (val d * IZR (2 * k))) BIG) as [HH|HH]; auto.
    rewrite Vx in XB. unfold clip in XB. rewrite Rmin_right in XB by lra. rewrite Rmax_right in XB by lra. lra. }
  assert (K2 : (1 <= 2 * k <= 2 ^ 53)%Z) by (unfold klen in Hk; lia).
  assert (KR : 1 <= IZR (2 * k)) by (apply IZR_le; lia).
  pose proof (scaled (val y) (val d) (2 * k) K2 (format_val _ Fy) (format_val _ Fd)) as S.
  rewrite <- Vx' in S. specialize (S ltac:(lra)).
  rewrite VW. rewrite <- (rnd_val y Fy). apply rnd_le.
  assert (Q : val x <= rnd (sqrt (val C))).
  { rewrite <- (rnd_id (val x)).
    - apply rnd_le. rewrite <- (sqrt_square (val x)) by auto. apply sqrt_le_1_alt. lra.
    - rewrite Vx'. apply generic_format_round; auto with typeclass_instances. }
  apply Rle_trans with (val x / IZR (2 * k)).
  - apply Rmult_le_reg_r with (IZR (2 * k)); [lra|]. unfold Rdiv. rewrite Rmult_assoc, Rinv_l by lra. lra.
  - unfold Rdiv. apply Rmult_le_compat_r; [|auto]. apply Rlt_le, Rinv_0_lt_compat. lra.
Qed.

(** ** Concrete data for the examples. *)
Lemma small64_Z z : (Z.abs z <= 2 ^ 53)%Z -> small64 (f64_ofZ z).
Proof.
  intros H. destruct (ofZ_exact z H) as (F & V). split; auto. rewrite V.
  rewrite <- abs_IZR. apply Rle_trans with (bpow radix2 53).
  - change (bpow radix2 53) with (IZR (2 ^ 53)). now apply IZR_le.
  - apply bpow_le. lia.
Qed.
Lemma small64_Zs l : forallb (fun z => Z.abs z <=? 2 ^ 53)%Z l = true -> Forall small64 (map f64_ofZ l).
Proof.
  intros H. rewrite forallb_forall in H. apply Forall_forall. intros x Hx.
  apply in_map_iff in Hx as (z & <- & Hz). apply small64_Z. apply Z.leb_le. now apply H.
Qed.
Lemma fin64_Zs l : forallb (fun z => Z.abs z <=? 2 ^ 53)%Z l = true -> Forall fin64 (map f64_ofZ l).
Proof. intros H. eapply Forall_impl; [|now apply small64_Zs]. apply small_fin. Qed.
(** One half. *)
Definition half64 : spec_float := S754_finite false 4503599627370496 (-53).
Lemma ratio64_half : ratio64 half64.
Proof.
  split; [now split|]. unfold half64. cbn [val]. unfold F2R, Fnum, Fexp. cbn [cond_Zopp].
  change (bpow radix2 (-53)) with (/ IZR (2 ^ 53)).
  replace (2 ^ 53)%Z with (4503599627370496 * 2)%Z by reflexivity. rewrite mult_IZR. split.
  - apply Rmult_le_pos; [lra|]. apply Rlt_le, Rinv_0_lt_compat. lra.
  - rewrite Rinv_mult. rewrite <- Rmult_assoc, Rinv_r by lra. lra.
Qed.
