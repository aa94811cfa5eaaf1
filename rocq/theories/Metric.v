(** * Exact arithmetic: the triangle inequality of the pairwise distance and the Kim bound. *)
From Coq Require Import ZArith Bool Reals Lra Lia.
From Coq Require Import List Permutation.
From Verif Require Import Outcome Num RX Lemire Distance Laws RXLaws Spec DtwProofs SafeDist Numeric.
Import ListNotations.
Open Scope R_scope.

(** ** Minkowski's inequality for the accumulated squared differences. *)
Definition rv (x : rx) : R := match x with Fin r => r | _ => 0 end.
Lemma rv_Fin x : dat_rx x -> x = Fin (rv x).
Proof. now intros (r & ->). Qed.

Definition sq (x : R) : R := x * x.
Fixpoint ssq (a b : list R) : R :=
  match a, b with x :: a, y :: b => sq (x - y) + ssq a b | _, _ => 0 end.

Lemma sq_pos x : 0 <= sq x.
Proof. apply Rle_0_sqr. Qed.
Lemma ssq_pos a b : 0 <= ssq a b.
Proof. revert b; induction a; destruct b; cbn; try lra. pose proof (sq_pos (a - r)). specialize (IHa b). lra. Qed.

Lemma mink_step A B p q : 0 <= A -> 0 <= B ->
  sqrt A * sqrt B + p * q <= sqrt (A + sq p) * sqrt (B + sq q).
Proof.
  intros HA HB. pose proof (sq_pos p). pose proof (sq_pos q). unfold sq in *.
  rewrite <- (sqrt_mult A B), <- (sqrt_mult (A + p * p) (B + q * q)) by lra.
  assert (G : (sqrt (A * B) + p * q) * (sqrt (A * B) + p * q) <= (A + p * p) * (B + q * q)).
  { pose proof (sqrt_sqrt (A * B) ltac:(nra)) as E.
    assert (2 * (sqrt (A * B) * (p * q)) <= A * (q * q) + B * (p * p)); [|nra].
    rewrite (sqrt_mult A B) by auto.
    pose proof (sqrt_sqrt A HA). pose proof (sqrt_sqrt B HB).
    pose proof (Rle_0_sqr (sqrt A * q - sqrt B * p)) as Q. unfold Rsqr in Q. nra. }
  destruct (Rle_dec 0 (sqrt (A * B) + p * q)) as [H1|H1].
  - rewrite <- (sqrt_square (sqrt (A * B) + p * q)) by auto. now apply sqrt_le_1_alt.
  - pose proof (sqrt_pos ((A + p * p) * (B + q * q))). lra.
Qed.

Lemma minkowski a b c : length a = length b -> length b = length c ->
  sqrt (ssq a c) <= sqrt (ssq a b) + sqrt (ssq b c).
Proof.
  revert b c. induction a as [|x a IH]; intros [|y b] [|z c]; cbn [length]; intros E1 E2; try lia.
  - cbn. rewrite sqrt_0. lra.
  - cbn [ssq]. specialize (IH b c ltac:(lia) ltac:(lia)).
    pose proof (ssq_pos a b) as P1. pose proof (ssq_pos b c) as P2. pose proof (ssq_pos a c) as P3.
    set (A := ssq a b) in *. set (B := ssq b c) in *. set (D := ssq a c) in *.
    pose proof (mink_step A B (x - y) (y - z) P1 P2) as M.
    pose proof (sq_pos (x - y)) as S1. pose proof (sq_pos (y - z)) as S2.
    assert (HD : D <= A + B + 2 * (sqrt A * sqrt B)).
    { rewrite <- (sqrt_sqrt D P3). pose proof (sqrt_sqrt A P1). pose proof (sqrt_sqrt B P2).
      pose proof (sqrt_pos D). pose proof (sqrt_pos A). pose proof (sqrt_pos B). nra. }
    assert (E : sq (x - z) = sq (x - y) + sq (y - z) + 2 * ((x - y) * (y - z))) by (unfold sq; ring).
    pose proof (sqrt_pos (sq (x - y) + A)). pose proof (sqrt_pos (sq (y - z) + B)).
    rewrite <- (sqrt_square (sqrt (sq (x - y) + A) + sqrt (sq (y - z) + B))) by lra.
    apply sqrt_le_1_alt.
    pose proof (sqrt_sqrt (sq (x - y) + A) ltac:(lra)). pose proof (sqrt_sqrt (sq (y - z) + B) ltac:(lra)).
    rewrite (Rplus_comm A), (Rplus_comm B) in M. nra.
Qed.

Lemma sum_sq_acc a b : Forall dat_rx a -> Forall dat_rx b -> forall s,
  fold_left (fun acc c => nadd RX acc (sqd RX (fst c) (snd c))) (combine a b) (Fin s) =
  Fin (s + ssq (map rv a) (map rv b)).
Proof.
  intros Ha. revert b. induction Ha as [|x a Hx Ha IH]; intros b Hb s.
  - cbn. f_equal; lra.
  - destruct Hb as [|y b Hy Hb]; [cbn; f_equal; lra|].
    destruct Hx as (x' & ->). destruct Hy as (y' & ->). cbn [combine fold_left map ssq].
    change (nadd RX (Fin s) (sqd RX (fst (Fin x', Fin y')) (snd (Fin x', Fin y'))))
      with (Fin (s + (x' + - y') * (x' + - y'))).
    rewrite IH by auto. f_equal. unfold sq. cbn [rv]. unfold Rminus. ring.
Qed.
Lemma sum_sq_rx a b : Forall dat_rx a -> Forall dat_rx b ->
  sum_sq RX a b = Fin (ssq (map rv a) (map rv b)).
Proof. intros Ha Hb. unfold sum_sq. change (nzero RX) with (Fin 0). rewrite sum_sq_acc by auto. f_equal. lra. Qed.

Lemma ssq_sym a b : ssq a b = ssq b a.
Proof. revert b. induction a as [|x a IH]; intros [|y b]; cbn; auto. rewrite IH. unfold sq. ring. Qed.
Lemma ssq_zero a b : length a = length b -> (ssq a b = 0 <-> a = b).
Proof.
  revert b. induction a as [|x a IH]; intros [|y b] E; cbn in *; try discriminate; [tauto|].
  injection E as E. pose proof (sq_pos (x - y)). pose proof (ssq_pos a b). split.
  - intros H1. assert (H2 : sq (x - y) = 0) by lra. assert (H3 : ssq a b = 0) by lra.
    apply IH in H3; auto. apply Rmult_integral in H2. f_equal; auto. destruct H2; lra.
  - intros H1. injection H1 as -> ->. assert (ssq b b = 0) by now apply IH. unfold sq. nra.
Qed.
Lemma map_rv_Fin a : map rv (map Fin a) = a.
Proof. rewrite map_map. cbn. apply map_id. Qed.
Lemma Fin_dat a : Forall dat_rx (map Fin a).
Proof. apply Forall_forall. intros x H. apply in_map_iff in H as (r & <- & _). now exists r. Qed.
Lemma zlen_map {A B} (f : A -> B) l : zlen (map f l) = zlen l.
Proof. unfold zlen. now rewrite map_length. Qed.

Lemma pairwise_rx a b : (1 <= zlen a <= 2 ^ 30)%Z -> zlen b = zlen a ->
  pairwiseDistance RX (map Fin a) (map Fin b) PInf = Ok (Fin (sqrt (ssq a b / IZR (zlen a)))).
Proof.
  intros Ha Hb. assert (K : klen (zlen a)) by (unfold klen; lia).
  assert (Hn : 0 < IZR (zlen a)) by (apply IZR_lt; lia).
  destruct (pairwise_spec RX _ _ rx_cost (map Fin a) (map Fin b) PInf) as (w & E & Hw).
  - apply Fin_dat.
  - apply Fin_dat.
  - change (@zlen (num RX)) with (@zlen rx). rewrite zlen_map. lia.
  - change (@zlen (num RX)) with (@zlen rx). rewrite !zlen_map. lia.
  - change (@zlen (num RX)) with (@zlen rx). rewrite zlen_map. auto.
  - change (@zlen (num RX)) with (@zlen rx). rewrite zlen_map.
    change PInf with (ninf RX). rewrite (c_inorm_inf _ _ _ rx_cost) by auto. apply (c_pos_inf _ _ _ rx_cost).
  - rewrite E. change (@zlen (num RX)) with (@zlen rx) in Hw. rewrite zlen_map in Hw. change PInf with (ninf RX) in Hw.
    rewrite (c_inorm_inf _ _ _ rx_cost) in Hw by auto.
    rewrite sum_sq_rx in Hw by apply Fin_dat. rewrite !map_rv_Fin in Hw. destruct Hw as [(-> & _)|(_ & H)]; [|discriminate H].
    f_equal. unfold euc_norm. cbn [ndiv nsqrt nofZ RX rx_div]. destruct (Req_EM_T (IZR (zlen a)) 0); [lra|].
    cbn [rx_sqrt]. destruct (Rlt_dec (ssq a b / IZR (zlen a)) 0) as [H|_]; auto.
    exfalso. assert (0 <= ssq a b / IZR (zlen a)); [|lra]. apply Rmult_le_pos; [apply ssq_pos|]. apply Rlt_le, Rinv_0_lt_compat. auto.
Qed.

Lemma pairwise_metric (a b c : list R) :
  (1 <= zlen a <= 2 ^ 30)%Z -> zlen b = zlen a -> zlen c = zlen a ->
  exists ab bc ac : R,
    pairwiseDistance RX (map Fin a) (map Fin b) PInf = Ok (Fin ab) /\
    pairwiseDistance RX (map Fin b) (map Fin c) PInf = Ok (Fin bc) /\
    pairwiseDistance RX (map Fin a) (map Fin c) PInf = Ok (Fin ac) /\
    0 <= ab /\ ac <= ab + bc /\
    pairwiseDistance RX (map Fin b) (map Fin a) PInf = Ok (Fin ab) /\
    (ab = 0 <-> a = b).
Proof.
  intros Ha Hb Hc. assert (Hn : 0 < IZR (zlen a)) by (apply IZR_lt; lia).
  rewrite (pairwise_rx a b), (pairwise_rx b c), (pairwise_rx a c), (pairwise_rx b a) by (try lia).
  rewrite Hb. eexists _, _, _. split; [reflexivity|]. split; [reflexivity|]. split; [reflexivity|].
  assert (D : forall x, 0 <= x -> sqrt (x / IZR (zlen a)) = sqrt x / sqrt (IZR (zlen a))).
  { intros x Hx. apply sqrt_div; auto. }
  pose proof (sqrt_lt_R0 _ Hn) as Q. pose proof (Rinv_0_lt_compat _ Q) as Q'.
  rewrite !D by apply ssq_pos. unfold Rdiv. pose proof (sqrt_pos (ssq a b)).
  assert (La : length a = length b) by (unfold zlen in *; lia). assert (Lb : length b = length c) by (unfold zlen in *; lia).
  split; [nra|]. split; [|split].
  - rewrite <- Rmult_plus_distr_r. apply Rmult_le_compat_r; [lra|]. now apply minkowski.
  - now rewrite (ssq_sym b a).
  - rewrite <- (ssq_zero a b La). split.
    + intros E. apply Rmult_integral in E as [E|E]; [|lra]. apply sqrt_eq_0 in E; auto. apply ssq_pos.
    + intros ->. rewrite sqrt_0. ring.
Qed.
