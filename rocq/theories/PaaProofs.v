(** * What block means keep: distances, composition, ranges. *)
From Coq Require Import ZArith Bool Reals Lra Lia SpecFloat.
From Coq Require Import List.
From Flocq Require Import Core.
From Verif Require Import Outcome Num RX Lemire Distance TimeSeries Text Dataset Groups Api GroupSpec Laws F64Base RXLaws F64Laws Spec DtwProofs SafeDist Numeric Metric.
From Verif Require Import DataProofs Properties_Data.
Import ListNotations.
Open Scope R_scope.

(** ** Slices. *)
Lemma slice_split {A} (l : list A) s n k : (0 <= s)%Z -> (0 <= n)%Z -> (0 <= k)%Z -> zslice l s (n + k) = zslice l s n ++ zslice l (s + n) k.
Proof.
  intros Hs Hn Hk. unfold zslice.
  assert (E : skipn (Z.to_nat (s + n)) l = skipn (Z.to_nat n) (skipn (Z.to_nat s) l)).
  { rewrite Z2Nat.inj_add by lia. generalize (Z.to_nat s) (Z.to_nat n). clear. intros s. revert l.
    induction s as [|s IH]; intros l n; [reflexivity|]. destruct l as [|x l]; [now rewrite !skipn_nil|]. cbn. apply IH. }
  rewrite E, Z2Nat.inj_add by lia. generalize (skipn (Z.to_nat s) l) (Z.to_nat n) (Z.to_nat k). clear. intros l n. revert l.
  induction n as [|n IH]; intros l k; cbn; auto. destruct l; cbn; [now rewrite firstn_nil|]. f_equal. apply IH.
Qed.
Lemma slice_len {A} (l : list A) s n : (0 <= s)%Z -> (0 <= n)%Z -> (s + n <= zlen l)%Z -> zlen (zslice l s n) = n.
Proof. intros Hs Hn H. unfold zlen, zslice in *. rewrite firstn_length, skipn_length. lia. Qed.
Lemma slice_dat (P : rx -> Prop) l s n : Forall P l -> Forall P (zslice l s n).
Proof.
  intros H. unfold zslice. apply Forall_forall. intros x Hx. rewrite Forall_forall in H. apply H.
  rewrite <- (firstn_skipn (Z.to_nat s) l). apply in_or_app. right.
  rewrite <- (firstn_skipn (Z.to_nat n) (skipn (Z.to_nat s) l)). apply in_or_app. now left.
Qed.

(** ** Exact arithmetic. *)
Definition rsum (l : list R) : R := fold_right Rplus 0 l.
Lemma rsum_app l l' : rsum (l ++ l') = rsum l + rsum l'.
Proof. unfold rsum. induction l as [|x l IH]; cbn; [lra|]. rewrite IH. lra. Qed.
Definition avg (l : list R) : R := rsum l / IZR (zlen l).
Lemma mean_rx (l : list rx) : Forall dat_rx l -> l <> [] -> mean RX l = Fin (avg (map rv l)).
Proof.
  intros H Hl. rewrite <- (map_id l) at 1. rewrite (map_ext_in (fun x => x) (fun x => Fin (rv x)) l), <- map_map.
  - rewrite (C32_mean_exact (map rv l)) by (destruct l; [congruence|discriminate]). unfold avg, rsum, zlen. now rewrite INR_IZR_INZ.
  - intros x Hx. rewrite Forall_forall in H. now apply rv_Fin, H.
Qed.
Lemma ssq_app a b a' b' : length a = length b -> ssq (a ++ a') (b ++ b') = ssq a b + ssq a' b'.
Proof. revert b. induction a as [|x a IH]; intros [|y b] E; cbn in *; try discriminate; [lra|]. rewrite IH by lia. lra. Qed.
(** The square of a sum of differences. *)
Lemma sum_square a b : length a = length b -> sq (rsum a - rsum b) <= IZR (zlen a) * ssq a b.
Proof.
  revert b. induction a as [|x a IH]; intros [|y b] E; cbn in E; try discriminate.
  - unfold sq. cbn. lra.
  - injection E as E. specialize (IH b E). rewrite (zlen_cons x a), plus_IZR. cbn [ssq rsum fold_right]. fold (rsum a) (rsum b).
    pose proof (ssq_pos a b) as Q. assert (K : 0 <= IZR (zlen a)) by (apply IZR_le; unfold zlen; lia).
    set (k := IZR (zlen a)) in *. set (S := rsum a - rsum b) in *. set (q := ssq a b) in *. set (d := x - y).
    replace (x + rsum a - (y + rsum b)) with (S + d) by (unfold S, d; ring). unfold sq in *.
    assert (2 * S * d <= q + k * (d * d)); [|nra].
    destruct (Req_dec k 0) as [Hk|Hk].
    + assert (S = 0) by nra. nra.
    + assert (k * (2 * S * d) <= k * (q + k * (d * d))); [|nra].
      pose proof (Rle_0_sqr (S - k * d)) as Z. unfold Rsqr in Z. nra.
Qed.
Lemma avg_square a b : length a = length b -> a <> [] -> IZR (zlen a) * sq (avg a - avg b) <= ssq a b.
Proof.
  intros E Ha. pose proof (sum_square a b E) as H. unfold avg. replace (zlen b) with (zlen a) by (unfold zlen; now rewrite E).
  assert (K : 0 < IZR (zlen a)) by (apply IZR_lt; unfold zlen; destruct a; [congruence|cbn; lia]).
  set (k := IZR (zlen a)) in *. unfold sq in *. replace (rsum a / k - rsum b / k) with ((rsum a - rsum b) / k) by (field; lra).
  replace (k * ((rsum a - rsum b) / k * ((rsum a - rsum b) / k))) with ((rsum a - rsum b) * (rsum a - rsum b) / k) by (field; lra).
  apply Rmult_le_reg_r with k; auto. unfold Rdiv. rewrite Rmult_assoc, Rinv_l by lra. lra.
Qed.

(** [data'] holds from [o'] on the means of the blocks of [n] values of [data] from [o] on. *)
Definition block_means (data data' : list rx) (n o o' L : Z) : Prop :=
  forall k, (0 <= k < L)%Z -> zget data' (o' + k) = Ok (mean RX (zslice data (o + k * n) n)).
Lemma blocks_ssq (data data' : list rx) n o1 o1' o2 o2' : Forall dat_rx data -> (1 <= n)%Z ->
  (0 <= o1)%Z -> (0 <= o1')%Z -> (0 <= o2)%Z -> (0 <= o2')%Z ->
  forall L, (0 <= L)%Z -> block_means data data' n o1 o1' L -> block_means data data' n o2 o2' L ->
  (o1 + n * L <= zlen data)%Z -> (o2 + n * L <= zlen data)%Z ->
  Forall dat_rx (zslice data' o1' L) /\ Forall dat_rx (zslice data' o2' L) /\
  zlen (zslice data' o1' L) = L /\ zlen (zslice data' o2' L) = L /\
  IZR n * ssq (map rv (zslice data' o1' L)) (map rv (zslice data' o2' L)) <=
  ssq (map rv (zslice data o1 (n * L))) (map rv (zslice data o2 (n * L))).
Proof.
  intros Hd Hn H1 H1' H2 H2'. apply (natlike_ind (fun L => block_means data data' n o1 o1' L -> block_means data data' n o2 o2' L ->
    (o1 + n * L <= zlen data)%Z -> (o2 + n * L <= zlen data)%Z ->
    Forall dat_rx (zslice data' o1' L) /\ Forall dat_rx (zslice data' o2' L) /\
    zlen (zslice data' o1' L) = L /\ zlen (zslice data' o2' L) = L /\
    IZR n * ssq (map rv (zslice data' o1' L)) (map rv (zslice data' o2' L)) <=
    ssq (map rv (zslice data o1 (n * L))) (map rv (zslice data o2 (n * L))))).
  - intros _ _ _ _. rewrite !zslice_0, Z.mul_0_r, !zslice_0. repeat split; auto. cbn. lra.
  - intros L HL IH B1 B2 E1 E2.
    assert (K1 : zlen (zslice data (o1 + n * L) n) = n) by (apply slice_len; lia).
    assert (K2 : zlen (zslice data (o2 + n * L) n) = n) by (apply slice_len; lia).
    destruct IH as (D1 & D2 & L1 & L2 & I).
    { intros k Hk. apply B1. lia. }
    { intros k Hk. apply B2. lia. }
    { lia. } { lia. }
    pose proof (B1 L ltac:(lia)) as G1. pose proof (B2 L ltac:(lia)) as G2. rewrite (Z.mul_comm L n) in G1, G2.
    assert (F1 : Forall dat_rx (zslice data (o1 + n * L) n)) by now apply slice_dat.
    assert (F2 : Forall dat_rx (zslice data (o2 + n * L) n)) by now apply slice_dat.
    assert (N1 : zslice data (o1 + n * L) n <> []) by (intros E; rewrite E in K1; cbn in K1; lia).
    assert (N2 : zslice data (o2 + n * L) n <> []) by (intros E; rewrite E in K2; cbn in K2; lia).
    rewrite mean_rx in G1, G2 by auto.
    unfold Z.succ. rewrite (zslice_snoc data' o1' L _ H1' HL G1), (zslice_snoc data' o2' L _ H2' HL G2).
    rewrite Z.mul_add_distr_l, Z.mul_1_r, !slice_split by lia. rewrite !map_app.
    split; [apply Forall_app; split; auto; constructor; auto; eexists; reflexivity|].
    split; [apply Forall_app; split; auto; constructor; auto; eexists; reflexivity|].
    split; [rewrite zlen_app, L1; reflexivity|]. split; [rewrite zlen_app, L2; reflexivity|].
    rewrite !ssq_app.
    + pose proof (avg_square (map rv (zslice data (o1 + n * L) n)) (map rv (zslice data (o2 + n * L) n))) as A.
      rewrite zlen_map, K1 in A. cbn [map ssq rv]. rewrite Rmult_plus_distr_l. apply Rplus_le_compat; auto. rewrite Rplus_0_r. apply A.
      * rewrite !map_length. unfold zlen in *. lia.
      * intros E. apply N1. destruct (zslice data (o1 + n * L) n); auto; discriminate.
    + rewrite !map_length. assert (zlen (zslice data o1 (n * L)) = n * L)%Z by (apply slice_len; lia).
      assert (zlen (zslice data o2 (n * L)) = n * L)%Z by (apply slice_len; lia). unfold zlen in *. lia.
    + rewrite !map_length. unfold zlen in *. lia.
Qed.
Lemma blocks_sum (data data' : list rx) n o o' : Forall dat_rx data -> (1 <= n)%Z -> (0 <= o)%Z -> (0 <= o')%Z ->
  forall L, (0 <= L)%Z -> block_means data data' n o o' L -> (o + n * L <= zlen data)%Z ->
  Forall dat_rx (zslice data' o' L) /\ zlen (zslice data' o' L) = L /\
  IZR n * rsum (map rv (zslice data' o' L)) = rsum (map rv (zslice data o (n * L))).
Proof.
  intros Hd Hn Ho Ho'. apply (natlike_ind (fun L => block_means data data' n o o' L -> (o + n * L <= zlen data)%Z ->
    Forall dat_rx (zslice data' o' L) /\ zlen (zslice data' o' L) = L /\
    IZR n * rsum (map rv (zslice data' o' L)) = rsum (map rv (zslice data o (n * L))))).
  - intros _ _. rewrite !zslice_0, Z.mul_0_r, !zslice_0. repeat split; auto. cbn. lra.
  - intros L HL IH B E. assert (K : zlen (zslice data (o + n * L) n) = n) by (apply slice_len; lia).
    destruct IH as (D & L1 & I); [intros k Hk; apply B; lia|lia|].
    pose proof (B L ltac:(lia)) as G. rewrite (Z.mul_comm L n) in G.
    assert (F : Forall dat_rx (zslice data (o + n * L) n)) by now apply slice_dat.
    assert (N0 : zslice data (o + n * L) n <> []) by (intros E0; rewrite E0 in K; cbn in K; lia).
    rewrite mean_rx in G by auto. unfold Z.succ. rewrite (zslice_snoc data' o' L _ Ho' HL G).
    rewrite Z.mul_add_distr_l, Z.mul_1_r, slice_split by lia. rewrite !map_app, !rsum_app.
    split; [apply Forall_app; split; auto; constructor; auto; eexists; reflexivity|].
    split; [rewrite zlen_app, L1; reflexivity|]. rewrite Rmult_plus_distr_l, I. f_equal. cbn [map rsum fold_right rv].
    unfold avg. rewrite zlen_map, K. field. apply not_0_IZR. lia.
Qed.
Lemma blocks_mean (data data' : list rx) n o o' L : Forall dat_rx data -> (1 <= n)%Z -> (0 <= o)%Z -> (0 <= o')%Z ->
  (1 <= L)%Z -> block_means data data' n o o' L -> (o + n * L <= zlen data)%Z ->
  mean RX (zslice data' o' L) = mean RX (zslice data o (n * L)).
Proof.
  intros Hd Hn Ho Ho' HL B E. destruct (blocks_sum data data' n o o' Hd Hn Ho Ho' L ltac:(lia) B E) as (D & L1 & S).
  assert (K : zlen (zslice data o (n * L)) = (n * L)%Z) by (apply slice_len; lia).
  rewrite !mean_rx; auto using slice_dat.
  - f_equal. unfold avg. rewrite !zlen_map, L1, K, <- S, mult_IZR. field. split; apply not_0_IZR; lia.
  - intros E0. rewrite E0 in K. cbn in K. lia.
  - intros E0. rewrite E0 in L1. cbn in L1. lia.
Qed.

(** ** Doubles: means of values in [0,1]. *)
Lemma BIG_53 : IZR (2 ^ 53) < BIG.
Proof. change (IZR (2 ^ 53)) with (bpow radix2 53). apply bpow_lt. lia. Qed.
Definition unit64 (x : spec_float) : Prop := fin64 x /\ 0 <= val x <= 1.
Lemma sum_range (l : list spec_float) : Forall unit64 l -> forall acc k, (0 <= k)%Z -> (k + zlen l <= 2 ^ 53)%Z ->
  fin64 acc -> 0 <= val acc <= IZR k ->
  fin64 (fold_left (nadd F64) l acc) /\ 0 <= val (fold_left (nadd F64) l acc) <= IZR (k + zlen l).
Proof.
  induction 1 as [|x l (Fx & Vx) _ IH]; intros acc k Hk Hl Fa Va.
  - cbn [fold_left]. rewrite Z.add_0_r. auto.
  - rewrite zlen_cons in Hl. assert (H0 : (0 <= zlen l)%Z) by (unfold zlen; lia).
    destruct (add_rnd acc x Fa Fx) as (O & V).
    assert (B : 0 <= val acc + val x <= IZR (k + 1)) by (rewrite plus_IZR; lra).
    assert (R1 : 0 <= rnd (val acc + val x) <= IZR (k + 1)).
    { split; [apply rnd_pos; lra|]. rewrite <- (rnd_id (IZR (k + 1))) by (apply format_Z; lia). apply rnd_le. lra. }
    assert (K : IZR (k + 1) < BIG) by (apply Rle_lt_trans with (2 := BIG_53); apply IZR_le; lia).
    pose proof BIG_gt0. rewrite clip_id in V by lra.
    cbn [fold_left]. rewrite zlen_cons. replace (k + (1 + zlen l))%Z with ((k + 1) + zlen l)%Z by lia. replace (k + (zlen l + 1))%Z with ((k + 1) + zlen l)%Z by lia.
    apply IH; try lia.
    + apply fin_val_bound; auto. change (nadd F64 acc x) with (SFadd prec64 emax64 acc x). rewrite V. lra.
    + change (nadd F64 acc x) with (SFadd prec64 emax64 acc x). rewrite V. lra.
Qed.
Lemma mean_range (l : list spec_float) : Forall unit64 l -> (1 <= zlen l <= 2 ^ 53)%Z -> unit64 (mean F64 l).
Proof.
  intros H Hl. destruct (sum_range l H (nzero F64) 0%Z ltac:(lia) ltac:(lia)) as (Fs & Vs).
  - split; [reflexivity|exact I].
  - change (val (nzero F64)) with 0. lra.
  - unfold mean. change (0 + zlen l)%Z with (zlen l) in Vs. set (s := fold_left (nadd F64) l (nzero F64)) in *.
    destruct (ofZ_exact (zlen l) ltac:(lia)) as (Fz & Vz).
    assert (P : 1 <= IZR (zlen l)) by (apply IZR_le; lia).
    destruct (div_rnd s (f64_ofZ (zlen l)) Fs Fz ltac:(rewrite Vz; lra)) as (O & V). rewrite Vz in V.
    assert (Q : 0 <= val s / IZR (zlen l) <= 1).
    { split; [apply Rmult_le_pos; [lra|apply Rlt_le, Rinv_0_lt_compat; lra]|].
      apply Rmult_le_reg_r with (IZR (zlen l)); [lra|]. unfold Rdiv. rewrite Rmult_assoc, Rinv_l by lra. lra. }
    assert (R1 : 0 <= rnd (val s / IZR (zlen l)) <= 1).
    { split; [apply rnd_pos; lra|]. rewrite <- (rnd_id 1) by exact (format_Z 1 ltac:(lia)). apply rnd_le. lra. }
    pose proof BIG_53. assert (1 <= IZR (2 ^ 53)) by (apply IZR_le; lia). rewrite clip_id in V by lra.
    change (ndiv F64 s (nofZ F64 (zlen l))) with (SFdiv prec64 emax64 s (f64_ofZ (zlen l))).
    split; [apply fin_val_bound; auto|]; rewrite V; lra.
Qed.
