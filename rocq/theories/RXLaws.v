(** * The laws of Laws.v for exact arithmetic. *)
From Coq Require Import ZArith Bool Reals Lra Lia.
From Verif Require Import Outcome Num Lemire Distance RX Laws.
Open Scope R_scope.

(** Finite values; non-negative values or +INF. *)
Definition dat_rx (x : rx) : Prop := exists r, x = Fin r.
Definition pos_rx (x : rx) : Prop := x = PInf \/ exists r, x = Fin r /\ 0 <= r.
(** Any value but NaN. *)
Definition ok_rx (x : rx) : Prop := x <> NaN.

Ltac rxs := repeat match goal with
  | H : dat_rx _ |- _ => destruct H as (? & ->)
  | H : pos_rx _ |- _ => destruct H as [->|(? & -> & ?)]
  end.
Ltac rcase := unfold le, lt, Rltb, Rleb, Reqb in *; cbn in *; unfold Rltb, Rleb, Reqb in *;
  repeat match goal with
  | |- context [Rlt_dec ?a ?b] => destruct (Rlt_dec a b)
  | H : context [Rlt_dec ?a ?b] |- _ => destruct (Rlt_dec a b)
  | |- context [Req_EM_T ?a ?b] => destruct (Req_EM_T a b)
  | H : context [Req_EM_T ?a ?b] |- _ => destruct (Req_EM_T a b)
  end.

Lemma rx_ord : OrdLaws RX ok_rx.
Proof.
  split.
  - intros x y Hx Hy H. destruct x, y; rcase; auto; try discriminate; try lra; try congruence.
  - intros x y z Hx Hy Hz A B. unfold ok_rx in *.
    destruct x, y, z; rcase; auto; try discriminate; try lra; try congruence.
Qed.

Lemma dat_ok_rx x : dat_rx x -> ok_rx x.
Proof. intros (r & ->). discriminate. Qed.
Lemma pos_ok_rx x : pos_rx x -> ok_rx x.
Proof. intros [->|(r & -> & _)]; discriminate. Qed.
Lemma ord_weaken N (ok ok' : num N -> Prop) : (forall x, ok x -> ok' x) -> OrdLaws N ok' -> OrdLaws N ok.
Proof.
  intros H [A B]; split; intros.
  - apply A; auto.
  - apply B with y; auto.
Qed.

Lemma klen_pos k : klen k -> 1 <= IZR k.
Proof. unfold klen. intros (H & _). now apply IZR_le in H. Qed.

Lemma sqrt_div_nonneg x k : 0 <= x -> 0 < k -> 0 <= sqrt x / k.
Proof.
  intros. apply Rmult_le_pos; [apply sqrt_pos|]. apply Rlt_le, Rinv_0_lt_compat. lra.
Qed.

Lemma rx_norm_dtw x k : klen k -> 0 <= x -> euc_norm_dtw RX (Fin x) k = Fin (sqrt x / (2 * IZR k)).
Proof.
  intros Hk Hx. apply klen_pos in Hk. unfold euc_norm_dtw. cbn [ndiv nsqrt nofZ RX].
  cbn [rx_sqrt]. destruct (Rlt_dec x 0); [lra|]. cbn [rx_div].
  rewrite mult_IZR. destruct (Req_EM_T (2 * IZR k) 0); [lra|]. reflexivity.
Qed.
Lemma rx_norm x k : klen k -> 0 <= x -> euc_norm RX (Fin x) k = Fin (sqrt (x / IZR k)).
Proof.
  intros Hk Hx. apply klen_pos in Hk. unfold euc_norm. cbn [ndiv nsqrt nofZ RX rx_div].
  destruct (Req_EM_T (IZR k) 0); [lra|]. cbn [rx_sqrt].
  destruct (Rlt_dec (x / IZR k) 0); [|reflexivity].
  assert (0 <= x / IZR k); [|lra]. apply Rmult_le_pos; auto. apply Rlt_le, Rinv_0_lt_compat. lra.
Qed.
Lemma rx_norm_dtw_inf k : klen k -> euc_norm_dtw RX PInf k = PInf.
Proof.
  intros Hk. apply klen_pos in Hk. unfold euc_norm_dtw. cbn [ndiv nsqrt nofZ RX rx_sqrt rx_div].
  rewrite mult_IZR. destruct (Rlt_dec (2 * IZR k) 0); [lra|]. reflexivity.
Qed.
Lemma rx_norm_inf k : klen k -> euc_norm RX PInf k = PInf.
Proof.
  intros Hk. apply klen_pos in Hk. unfold euc_norm. cbn [ndiv nsqrt nofZ RX rx_sqrt rx_div].
  destruct (Rlt_dec (IZR k) 0); [lra|]. reflexivity.
Qed.
Lemma rx_inorm_dtw d k : euc_inorm_dtw RX (Fin d) k = Fin (d * 2 * IZR k * (d * 2 * IZR k)).
Proof. reflexivity. Qed.
Lemma rx_inorm d k : euc_inorm RX (Fin d) k = Fin (d * d * IZR k).
Proof. reflexivity. Qed.
Lemma rx_signed_pos r : 0 < r -> rx_signed_inf r = PInf.
Proof. intros. unfold rx_signed_inf. destruct (Rlt_dec 0 r); [reflexivity|lra]. Qed.
Lemma rx_inorm_dtw_inf k : klen k -> euc_inorm_dtw RX PInf k = PInf.
Proof.
  intros Hk. apply klen_pos in Hk. unfold euc_inorm_dtw. cbn [nmul nofZ RX rx_mul].
  rewrite rx_signed_pos by lra. cbn [rx_mul]. rewrite rx_signed_pos by lra. reflexivity.
Qed.
Lemma rx_inorm_inf k : klen k -> euc_inorm RX PInf k = PInf.
Proof.
  intros Hk. apply klen_pos in Hk. unfold euc_inorm. cbn [nmul nofZ RX rx_mul].
  rewrite rx_signed_pos by lra. reflexivity.
Qed.

Lemma sqrt_div_le x y k : 0 < k -> x <= y -> sqrt x / k <= sqrt y / k.
Proof.
  intros Hk H. unfold Rdiv. apply Rmult_le_compat_r; [apply Rlt_le, Rinv_0_lt_compat; lra|].
  now apply sqrt_le_1_alt.
Qed.

Lemma rx_cost : CostLaws RX dat_rx pos_rx.
Proof.
  split.
  - apply (ord_weaken RX _ _ dat_ok_rx rx_ord).
  - apply (ord_weaken RX _ _ pos_ok_rx rx_ord).
  - intros. rxs; rcase; auto; try discriminate; try lra. f_equal; lra.
  - left; reflexivity.
  - intros. rxs; rcase; auto.
  - right. exists 0. split; [reflexivity|lra].
  - intros. rxs; rcase; auto. lra.
  - reflexivity.
  - intros. rxs. right. cbn. eexists. split; [reflexivity|]. apply Rle_0_sqr.
  - intros. rxs. cbn. f_equal. ring.
  - intros. rxs. cbn. unfold nzero. cbn. f_equal. ring.
  - intros b u c Hb Hu Hc A B. rxs. rcase; try discriminate; auto.
    match goal with H : _ * _ < _ * _ |- _ => revert H end.
    repeat match goal with H : ~ _ < _ |- _ => apply Rnot_lt_le in H end. nra.
  - intros b u c Hb Hu Hc A B. rxs. rcase; try discriminate; auto.
    match goal with H : _ * _ < _ * _ |- _ => revert H end.
    repeat match goal with H : ~ _ < _ |- _ => apply Rnot_lt_le in H end. nra.
  - intros. rxs; cbn; try (left; reflexivity). right. eexists; split; [reflexivity|lra].
  - intros. rxs; rcase; auto; try lra; discriminate.
  - intros. rxs; cbn; auto. f_equal; ring.
  - intros. rxs; cbn; auto. f_equal; ring.
  - intros x k Hk Hx. rxs; [rewrite rx_norm_dtw_inf by auto; now left|].
    rewrite rx_norm_dtw by auto. right. eexists; split; [reflexivity|].
    apply klen_pos in Hk. apply sqrt_div_nonneg; lra.
  - intros x y k Hk Hx Hy H. rxs; rewrite ?rx_norm_dtw_inf, ?rx_norm_dtw by auto; try reflexivity.
    + rcase; discriminate.
    + apply klen_pos in Hk. unfold le in *. cbn in *. unfold Rltb in *.
      repeat match goal with H : context [Rlt_dec ?a ?b] |- _ => destruct (Rlt_dec a b) end;
        [discriminate|]. destruct (Rlt_dec _ _) as [Q|Q]; auto.
      match type of Q with sqrt ?b / _ < sqrt ?a / _ =>
        pose proof (sqrt_div_le a b (2 * IZR k)) end. lra.
  - intros. now apply rx_norm_dtw_inf.
  - intros k Hk. unfold nzero. cbn [nofZ RX]. rewrite rx_norm_dtw by (auto; lra).
    rewrite sqrt_0. unfold Rdiv. now rewrite Rmult_0_l.
  - intros x k Hk Hx H. rxs.
    + rcase; discriminate.
    + rewrite rx_norm_dtw by auto. reflexivity.
  - intros x k Hk Hx. rxs; [rewrite rx_norm_inf by auto; now left|].
    rewrite rx_norm by auto. right. eexists; split; [reflexivity|]. apply sqrt_pos.
  - intros x y k Hk Hx Hy H. rxs; rewrite ?rx_norm_inf, ?rx_norm by auto; try reflexivity.
    + rcase; discriminate.
    + apply klen_pos in Hk. unfold le in *. cbn in *. unfold Rltb in *.
      repeat match goal with H : context [Rlt_dec ?a ?b] |- _ => destruct (Rlt_dec a b) end;
        [discriminate|]. destruct (Rlt_dec _ _) as [Q|Q]; auto.
      match type of Q with ?b < ?a => assert (a <= b); [|lra] end. apply sqrt_le_1_alt.
      unfold Rdiv. apply Rmult_le_compat_r; [apply Rlt_le, Rinv_0_lt_compat; lra|lra].
  - intros. now apply rx_norm_inf.
  - intros k Hk. unfold nzero. cbn [nofZ RX]. rewrite rx_norm by (auto; lra).
    unfold Rdiv. rewrite Rmult_0_l. now rewrite sqrt_0.
  - intros x k Hk Hx H. rxs.
    + rcase; discriminate.
    + rewrite rx_norm by auto. reflexivity.
  - intros d k Hk Hd. rxs; [rewrite rx_inorm_dtw_inf by auto; now left|].
    rewrite rx_inorm_dtw. right. eexists; split; [reflexivity|]. nra.
  - intros. now apply rx_inorm_dtw_inf.
  - intros d k Hk Hd. rxs; [rewrite rx_inorm_inf by auto; now left|].
    rewrite rx_inorm. right. eexists; split; [reflexivity|]. apply klen_pos in Hk. nra.
  - intros. now apply rx_inorm_inf.
Qed.

Lemma Rltb_iff a b c d : (a < b <-> c < d) -> Rltb a b = Rltb c d.
Proof. intros H. unfold Rltb. destruct (Rlt_dec a b), (Rlt_dec c d); tauto. Qed.

Lemma sq_lt_sqrt a x : 0 <= a -> 0 <= x -> (a * a < x <-> a < sqrt x).
Proof.
  intros Ha Hx. split; intros H.
  - rewrite <- (sqrt_square a) by auto. apply sqrt_lt_1_alt. nra.
  - rewrite <- (sqrt_sqrt x) by auto. nra.
Qed.

Lemma rx_exact : ExactLaws RX dat_rx pos_rx.
Proof.
  split; [exact rx_cost|..].
  - intros d x k Hk Hd Hx. pose proof (klen_pos _ Hk) as K.
    rxs; rewrite ?rx_inorm_dtw_inf, ?rx_inorm_dtw, ?rx_norm_dtw_inf, ?rx_norm_dtw by auto;
      try reflexivity.
    cbn. apply Rltb_iff. rewrite sq_lt_sqrt by nra.
    split; intros H1.
    + apply (Rmult_lt_reg_r (2 * IZR k)); [lra|]. unfold Rdiv. rewrite Rmult_assoc, Rinv_l by lra. lra.
    + apply (Rmult_lt_compat_r (2 * IZR k)) in H1; [|lra]. unfold Rdiv in H1.
      rewrite (Rmult_assoc (sqrt _)), Rinv_l in H1 by lra. lra.
  - intros d x k Hk Hd Hx. pose proof (klen_pos _ Hk) as K.
    rxs; rewrite ?rx_inorm_inf, ?rx_inorm, ?rx_norm_inf, ?rx_norm by auto; try reflexivity.
    cbn. apply Rltb_iff.
    match goal with |- ?d * ?d * _ < ?x <-> _ => rename d into dd; rename x into xx end.
    rewrite <- sq_lt_sqrt; auto.
    + assert (E : xx = xx / IZR k * IZR k) by (field; lra). split; intros H2; nra.
    + apply Rmult_le_pos; auto. apply Rlt_le, Rinv_0_lt_compat. lra.
Qed.
