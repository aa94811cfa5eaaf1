(** * Groups: facts about thresholds and distances in binary64 and exact arithmetic. *)
From Coq Require Import ZArith Bool Reals Lra Lia SpecFloat String Sorted Permutation List.
From Flocq Require Import Core BinarySingleNaN.
From Verif Require Import Outcome Num RX Lemire Distance TimeSeries Text Dataset Groups Api Laws F64Base RXLaws F64Laws Spec SafeDist Metric.
From Verif Require Import TsProofs GroupSpec GroupProofs GlobalGroup.
Import ListNotations.
Open Scope R_scope.

(** ** Half of a threshold. *)
Lemma val_2 : val (f64_ofZ 2) = 2.
Proof. destruct (ofZ_exact 2) as (_ & ->); [lia|reflexivity]. Qed.
Lemma half64_val thr : fin64 thr -> ok64 (half_of F64 thr) /\ val (half_of F64 thr) = clip (rnd (val thr / 2)).
Proof.
  intros F. unfold half_of. cbn [ndiv nofZ F64].
  destruct (div_rnd thr (f64_ofZ 2)) as (A & B); auto.
  - apply ofZ_exact. lia.
  - rewrite val_2. lra.
  - split; auto. rewrite B, val_2. reflexivity.
Qed.
Lemma half64_lt_inf thr : fin64 thr -> lt F64 (half_of F64 thr) (ninf F64).
Proof.
  intros F. destruct (half64_val thr F) as (A & B). apply lt64; auto.
  { apply pos_ok, pos_inf64. }
  rewrite B. change (val (ninf F64)) with BIG. pose proof (val_fin_bound thr F). pose proof BIG_gt0.
  assert (X : val thr / 2 <= Rmax (val thr) 0) by (unfold Rmax; destruct (Rle_dec (val thr) 0); lra).
  apply rnd_le in X. apply clip_le in X. eapply Rle_lt_trans; [exact X|].
  unfold Rmax. destruct (Rle_dec (val thr) 0).
  - rewrite rnd_0, clip_id; lra.
  - rewrite rnd_val by auto. rewrite clip_id; lra.
Qed.
Lemma half64_pos thr : fin64 thr -> le F64 (nzero F64) thr -> le F64 (nzero F64) (half_of F64 thr).
Proof.
  intros F P. destruct (half64_val thr F) as (A & B). apply le64 in P; [|apply pos_ok, pos_zero64|now apply fin_ok].
  apply le64; auto; [apply pos_ok, pos_zero64|]. rewrite B. change (val (nzero F64)) with 0 in *. apply clip_pos, rnd_pos. lra.
Qed.
Lemma half_rx t : half_of RX (Fin t) = Fin (t / 2).
Proof. unfold half_of. cbn [ndiv nofZ RX rx_div]. destruct (Req_EM_T 2 0); [lra|]. reflexivity. Qed.
Lemma half_rx_inf t : lt RX (half_of RX (Fin t)) (ninf RX).
Proof. rewrite half_rx. reflexivity. Qed.
Lemma half_rx_ord t : hord RX pos_rx (half_of RX (Fin t)).
Proof.
  rewrite half_rx. destruct (Rle_dec 0 (t / 2)).
  - left. right. eexists. split; eauto.
  - right. intros x [->|(r & -> & Hr)]; [reflexivity|]. unfold lt. cbn [nltb RX rx_ltb]. unfold Rltb.
    destruct (Rlt_dec (t / 2) r); auto. lra.
Qed.

(** ** Exact distances. *)
Lemma Fin_rv a : Forall dat_rx a -> map Fin (map rv a) = a.
Proof.
  intros H. rewrite map_map. rewrite <- (map_id a) at 2. apply map_ext_Forall. eapply Forall_impl; [|exact H].
  intros x Hx. cbn. symmetry. now apply rv_Fin.
Qed.
Lemma leb_rx a b : le RX (Fin a) (Fin b) <-> a <= b.
Proof. unfold le. cbn [nltb RX rx_ltb]. unfold Rltb. destruct (Rlt_dec b a); split; intros; try lra; try discriminate; auto. Qed.
Lemma ltb_rx a b : lt RX (Fin a) (Fin b) <-> a < b.
Proof. unfold lt. cbn [nltb RX rx_ltb]. unfold Rltb. destruct (Rlt_dec a b); split; intros; try lra; try discriminate; auto. Qed.

(** Three series of equal length. *)
Lemma rx_metric (a b c : list (num RX)) : Forall dat_rx a -> Forall dat_rx b -> Forall dat_rx c ->
  (1 <= zlen a <= 2 ^ 30)%Z -> zlen b = zlen a -> zlen c = zlen a ->
  exists ab bc ac : R, dist_is RX a b (Fin ab) /\ dist_is RX b c (Fin bc) /\ dist_is RX a c (Fin ac) /\
    0 <= ab /\ ac <= ab + bc /\ dist_is RX b a (Fin ab) /\ (ab = 0 <-> a = b).
Proof.
  change (num RX) with rx in *. intros Ha Hb Hc La Lb Lc.
  destruct (pairwise_metric (map rv a) (map rv b) (map rv c)) as (ab & bc & ac & H1 & H2 & H3 & H4 & H5 & H6 & H7);
    rewrite ?zlen_map; auto.
  rewrite !Fin_rv in * by auto. exists ab, bc, ac. do 6 (split; [assumption|]).
  rewrite H7. split; [intros E|now intros ->]. rewrite <- (Fin_rv a), <- (Fin_rv b), E by auto. reflexivity.
Qed.
