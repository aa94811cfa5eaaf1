(** * Printing with few digits and reading back: when the same double returns. *)
From Coq Require Import ZArith Bool Lia Reals Lra SpecFloat List.
From Flocq Require Import Core BinarySingleNaN Relative.
From Verif Require Import Outcome Num F64Base DecSpec NumSpec.
Open Scope R_scope.

(** Rounding to nearest even: what is at least as near to [m] as a number that rounds to [m] rounds to [m]. *)
Lemma nearest_closer a b m : ZnearestE a = m -> Rabs (b - IZR m) <= Rabs (a - IZR m) -> ZnearestE b = m.
Proof.
  intros Ha Hb. pose proof (Znearest_half (fun x => negb (Z.even x)) a) as Hh. fold ZnearestE in Hh. rewrite Ha in Hh.
  destruct (Rlt_or_le (Rabs (b - IZR m)) (/ 2)) as [L|L]; [apply Znearest_imp; lra|].
  assert (Tie : forall c, (c = IZR m + / 2 \/ c = IZR m - / 2) -> ZnearestE c = if Z.even m then m else if Rle_dec (IZR m) c then (m + 1)%Z else (m - 1)%Z).
  { intros c Hc. assert (K : exists k, c = IZR k + / 2 /\ (k = m \/ k = m - 1)%Z).
    { destruct Hc as [->| ->]; [exists m; auto|]. exists (m - 1)%Z. rewrite minus_IZR. split; [lra|auto]. }
    destruct K as (k & -> & K). unfold Znearest. assert (F : Zfloor (IZR k + / 2) = k) by (apply Zfloor_imp; rewrite plus_IZR; lra).
    rewrite F. replace (IZR k + / 2 - IZR k) with (/ 2) by ring. rewrite Rcompare_Eq by reflexivity.
    assert (G : Zceil (IZR k + / 2) = (k + 1)%Z). { apply Zceil_imp. replace (k + 1 - 1)%Z with k by lia. rewrite plus_IZR. lra. }
    rewrite G. destruct K as [->| ->].
    - destruct (Z.even m); cbn [negb]; auto. destruct (Rle_dec _ _); auto. lra.
    - assert (Ev : Z.even (m - 1) = negb (Z.even m)) by (rewrite Z.even_sub; now destruct (Z.even m)). rewrite Ev, negb_involutive. destruct (Z.even m); cbv iota; [lia|]. destruct (Rle_dec _ _) as [Q|_]; [|lia].
      rewrite minus_IZR in Q. lra. }
  assert (Ta : a = IZR m + / 2 \/ a = IZR m - / 2). { unfold Rabs in *. destruct (Rcase_abs (a - IZR m)), (Rcase_abs (b - IZR m)); lra. }
  assert (Tb : b = IZR m + / 2 \/ b = IZR m - / 2). { unfold Rabs in *. destruct (Rcase_abs (a - IZR m)), (Rcase_abs (b - IZR m)); lra. }
  rewrite (Tie a Ta) in Ha. rewrite (Tie b Tb). destruct (Z.even m); auto. destruct (Rle_dec (IZR m) a); lia.
Qed.

(** Not a power of two. *)
Definition no_pow2 (r : R) : Prop := forall e, Rabs r <> bpow radix2 e.

Lemma closer_pos x d d' : 0 < x -> rnd d = x -> no_pow2 x -> Rabs (d' - x) <= Rabs (d - x) -> rnd d' = x.
Proof.
  intros Hx Hd Hn Hc. assert (Fx : generic_format radix2 fexp64 x) by (rewrite <- Hd; apply generic_format_round; [apply FLT_exp_valid; reflexivity|apply valid_rnd_N]).
  set (g := (mag radix2 x : Z)). set (e := fexp64 g). pose proof (bpow_mag_le radix2 x ltac:(lra)) as B1. pose proof (bpow_mag_gt radix2 x) as B2. rewrite (Rabs_pos_eq x) in B1, B2 by lra. fold g in B1, B2.
  assert (B1' : bpow radix2 (g - 1) < x). { destruct B1 as [B1|B1]; auto. exfalso. apply (Hn (g - 1)%Z). rewrite Rabs_pos_eq by lra. auto. }
  assert (He : (e <= g - 1)%Z).
  { unfold e. assert (Q : (fexp64 g <= g - 1)%Z \/ (g <= fexp64 g)%Z) by lia. destruct Q as [Q|Q]; auto. exfalso.
    assert (Y : x = 0); [|lra]. revert Fx. unfold generic_format, scaled_mantissa, cexp. fold g. intros Fx.
    assert (Hm : Ztrunc (x * bpow radix2 (- fexp64 g)) = 0%Z).
    { rewrite Ztrunc_floor by (apply Rmult_le_pos; [lra|apply bpow_ge_0]). apply Zfloor_imp. split; [apply Rmult_le_pos; [lra|apply bpow_ge_0]|].
      apply Rlt_le_trans with (bpow radix2 g * bpow radix2 (- fexp64 g)); [apply Rmult_lt_compat_r; [apply bpow_gt_0|auto]|]. rewrite <- bpow_plus. change (IZR (0 + 1)) with (bpow radix2 0). apply bpow_le. lia. }
    rewrite Hm in Fx. rewrite F2R_0 in Fx. auto. }
  set (m := Ztrunc (x * bpow radix2 (- e))). assert (Ex : x = IZR m * bpow radix2 e).
  { revert Fx. unfold generic_format, scaled_mantissa, cexp, F2R. cbn [Fnum Fexp]. fold g. fold e. fold m. auto. }
  pose proof (bpow_gt_0 radix2 e) as Pe.
  (* Neighbours of the bounds of the binade. *)
  assert (I1 : exists k, bpow radix2 (g - 1) = IZR k * bpow radix2 e). { exists (2 ^ (g - 1 - e))%Z. change 2%Z with (radix_val radix2). rewrite IZR_Zpower by lia. rewrite <- bpow_plus. f_equal. lia. }
  assert (I2 : exists k, bpow radix2 g = IZR k * bpow radix2 e). { exists (2 ^ (g - e))%Z. change 2%Z with (radix_val radix2). rewrite IZR_Zpower by lia. rewrite <- bpow_plus. f_equal. lia. }
  destruct I1 as (k1 & I1), I2 as (k2 & I2).
  assert (M1 : IZR k1 + 1 <= IZR m). { rewrite <- plus_IZR. apply IZR_le. cut (k1 < m)%Z; [lia|]. apply lt_IZR. apply Rmult_lt_reg_r with (bpow radix2 e); auto. rewrite <- I1, <- Ex. auto. }
  assert (M2 : IZR m + 1 <= IZR k2). { rewrite <- plus_IZR. apply IZR_le. cut (m < k2)%Z; [lia|]. apply lt_IZR. apply Rmult_lt_reg_r with (bpow radix2 e); auto. rewrite <- I2, <- Ex. auto. }
  (* Everything within half a unit of [x] is in the binade, where rounding is rounding of the scaled number. *)
  assert (Sc : forall y, Rabs (y - x) <= / 2 * bpow radix2 e -> rnd y = IZR (ZnearestE (y * bpow radix2 (- e))) * bpow radix2 e).
  { intros y Hy. unfold rnd, round, F2R, scaled_mantissa, cexp. cbn [Fnum Fexp]. replace (mag radix2 y : Z) with g; [reflexivity|].
    symmetry. apply mag_unique. assert (Y : bpow radix2 (g - 1) <= y < bpow radix2 g).
    { apply Rabs_le_inv in Hy. rewrite I1, I2, Ex in *. assert ((IZR k1 + 1) * bpow radix2 e <= IZR m * bpow radix2 e) by (apply Rmult_le_compat_r; lra).
      assert ((IZR m + 1) * bpow radix2 e <= IZR k2 * bpow radix2 e) by (apply Rmult_le_compat_r; lra). lra. }
    rewrite Rabs_pos_eq; auto. pose proof (bpow_ge_0 radix2 (g - 1)). lra. }
  assert (Hd0 : Rabs (d - x) <= / 2 * bpow radix2 e).
  { pose proof (error_le_half_ulp_round radix2 fexp64 (fun z => negb (Z.even z)) d) as Q. fold ZnearestE in Q. fold (rnd d) in Q. rewrite Hd in Q.
    rewrite Rabs_minus_sym. eapply Rle_trans; [exact Q|]. rewrite ulp_neq_0 by lra. unfold cexp. fold g. fold e. lra. }
  assert (Sx : forall y, Rabs (y * bpow radix2 (- e) - IZR m) = Rabs (y - x) * bpow radix2 (- e)).
  { intros y. rewrite <- (Rabs_pos_eq (bpow radix2 (- e))) at 2 by apply bpow_ge_0. rewrite <- Rabs_mult. f_equal. rewrite Rmult_minus_distr_r. f_equal. rewrite Ex, Rmult_assoc, <- bpow_plus. replace (e + - e)%Z with 0%Z by lia. cbn. ring. }
  rewrite (Sc d' ltac:(lra)). rewrite (nearest_closer (d * bpow radix2 (- e)) (d' * bpow radix2 (- e)) m); auto.
  - rewrite (Sc d Hd0), Ex in Hd. apply Rmult_eq_reg_r in Hd; [|lra]. now apply eq_IZR in Hd.
  - rewrite !Sx. apply Rmult_le_compat_r; auto. apply bpow_ge_0.
Qed.
Lemma closer x d d' : rnd d = x -> x <> 0 -> no_pow2 x -> Rabs (d' - x) <= Rabs (d - x) -> rnd d' = x.
Proof.
  intros Hd H0 Hn Hc. destruct (Rlt_or_le 0 x) as [P|P]; [now apply closer_pos with d|].
  assert (Q : rnd (- d') = - x).
  { apply closer_pos with (- d); [lra|rewrite rnd_opp; now rewrite Hd| |].
    - intros e. rewrite Rabs_Ropp. apply Hn.
    - replace (- d' - - x) with (- (d' - x)) by ring. replace (- d - - x) with (- (d - x)) by ring. now rewrite !Rabs_Ropp. }
  rewrite rnd_opp in Q. lra.
Qed.

(** The decimal of at most [P] digits that is nearest to [x] is at least as near as any other. *)
Lemma round10_nearest P x d : (0 < P)%Z -> generic_format radix10 (FLX_exp P) d -> Rabs (round10 P x - x) <= Rabs (d - x).
Proof.
  intros HP Hd. assert (V : Valid_exp (FLX_exp P)) by (apply FLX_exp_valid; exact HP).
  destruct (round_N_pt radix10 (FLX_exp P) (fun z => negb (Z.even z)) x) as (_ & H). now apply H.
Qed.
(** A number with at most [P] digits. *)
Lemma digits_format P neg m e : (0 < P)%Z -> (0 <= m < 10 ^ P)%Z -> generic_format radix10 (FLX_exp P) (dec_real neg m e).
Proof.
  intros HP Hm. apply generic_format_FLX. exists (Float radix10 (opp_if neg m) e); [reflexivity|]. cbn [Fnum]. change (Zpower radix10 P) with (10 ^ P)%Z.
  destruct neg; cbn [opp_if]; rewrite ?Z.abs_opp, Z.abs_eq; lia.
Qed.
Lemma reread_value P x neg m e : (0 < P)%Z -> (0 <= m < 10 ^ P)%Z -> rnd (dec_real neg m e) = x -> no_pow2 x -> rnd (round10 P x) = x.
Proof.
  intros HP Hm Hx Hn. destruct (Req_dec x 0) as [->|H0]; [unfold round10; rewrite round_0 by apply valid_rnd_N; apply rnd_0|].
  apply closer with (dec_real neg m e); auto. apply round10_nearest; auto. now apply digits_format.
Qed.
(** The error of printing with [P] digits. *)
Lemma reread_error P x : (0 < P)%Z -> generic_format radix2 fexp64 x -> Rabs (rnd (round10 P x) - x) <= bpow radix10 (1 - P) * Rabs x.
Proof.
  intros HP Fx. assert (V : Valid_exp (FLX_exp P)) by (apply FLX_exp_valid; exact HP).
  pose proof (relative_error_N_FLX radix10 P HP (fun z => negb (Z.even z)) x) as E. fold (round10 P x) in E.
  assert (N : Rabs (rnd (round10 P x) - round10 P x) <= Rabs (x - round10 P x)).
  { destruct (round_N_pt radix2 fexp64 (fun z => negb (Z.even z)) (round10 P x)) as (_ & H). now apply H. }
  replace (rnd (round10 P x) - x) with ((rnd (round10 P x) - round10 P x) + (round10 P x - x)) by ring. eapply Rle_trans; [apply Rabs_triang|].
  rewrite (Rabs_minus_sym x) in N. replace (- P + 1)%Z with (1 - P)%Z in E by lia. lra.
Qed.
