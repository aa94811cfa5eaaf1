(** * Properties C01-C16: envelope, deque, distances, lower bounds, band, traverse order.

    [F64] is IEEE binary64 arithmetic (round to nearest even), [RX] exact real arithmetic with
    infinities.  [fin64]: a finite double; [ok64]: a double that is not NaN; [pos64]: a double that is
    +0, positive or +INF; [dat_rx], [pos_rx]: the same for [RX].  [lt], [le] are "x < y" and "not
    (y < x)" as computed by the arithmetic (Laws.v).  The notions of window minimum, warping path,
    cost of a path and optimal cost are in Spec.v. *)
From Coq Require Import ZArith Bool Reals Lra Lia SpecFloat String Sorted List.
From Verif Require Import Outcome Num RX Deque Lemire Distance Groups Laws F64Base RXLaws F64Laws Spec.
From Verif Require Import DtwProofs DequeProofs LemireProofs KeoghProofs SafeDist Band Numeric Metric Kim TraverseProofs.
Import ListNotations.
Open Scope Z_scope.

(** Two series of at least [lo] values, short enough for int arithmetic, and the half width [r >= 0]
    of the band that the code computes for them from the warping band ratio. *)
Definition pair_ok (N : NumOps) (dat : num N -> Prop) (lo : Z) (ratio : num N) (a b : list (num N)) (r : Z) : Prop :=
  Forall dat a /\ Forall dat b /\ lo <= zlen a <= 2 ^ 30 /\ lo <= zlen b <= 2 ^ 30 /\
  calculateWarpingBandSize N ratio (Z.max (zlen a) (zlen b)) = Ok r /\ 0 <= r.

Ltac pair_tac H a b := destruct H as (Ha & Hb & La & Lb & Hband & Hr);
  assert (H : klen (Z.max (zlen a) (zlen b))) by (unfold klen; lia).

(** A pair used in the examples: [0,1,2,5] and [1,1,4] with ratio 1/2, band 2. *)
Definition ex_a : list spec_float := map f64_ofZ [0; 1; 2; 5].
Definition ex_b : list spec_float := map f64_ofZ [1; 1; 4].
Lemma ex_pair : pair_ok F64 fin64 2 half64 ex_a ex_b 2.
Proof.
  unfold pair_ok. split; [now apply fin64_Zs|]. split; [now apply fin64_Zs|].
  split; [vm_compute; split; discriminate|]. split; [vm_compute; split; discriminate|]. split; [reflexivity|lia].
Qed.
Lemma ex_no_overflow : no_overflow F64 ex_a ex_b 2.
Proof. apply no_overflow_64; try (now apply small64_Zs); vm_compute; discriminate. Qed.

(** ** C01 *)
Theorem C01_envelope_is_window_minmax : forall (a : list spec_float) (r : Z),
  Forall ok64 a -> 1 <= zlen a -> 0 <= r ->
  exists lower upper, generateKeoghLU F64 a r = Ok (lower, upper) /\
    zlen lower = zlen a /\ zlen upper = zlen a /\
    forall i, 0 <= i < zlen a ->
      (exists x, zget lower i = Ok (Some x) /\
         is_window_min F64 a (Z.max 0 (i - r)) (Z.min (zlen a - 1) (i + r)) x) /\
      (exists x, zget upper i = Ok (Some x) /\
         is_window_max F64 a (Z.max 0 (i - r)) (Z.min (zlen a - 1) (i + r)) x).
Proof.
  intros a r Ha Hl Hr. destruct (Post_inv _ _ (generateKeoghLU_spec F64 ok64 f64_ord a r Ha Hl Hr))
    as ((l & u) & E & H). exists l, u. auto.
Qed.
Example C01_case : Forall ok64 ex_a /\ 1 <= zlen ex_a /\
  generateKeoghLU F64 ex_a 1 = Ok (map (fun z => Some (f64_ofZ z)) [0; 0; 1; 2], map (fun z => Some (f64_ofZ z)) [1; 2; 5; 5]).
Proof.
  split; [|split; [discriminate|vm_compute; reflexivity]].
  eapply Forall_impl; [apply fin_ok|]. now apply fin64_Zs.
Qed.

(** ** C02 *)
Theorem C02_deque_is_a_queue : forall (cap : Z) (ops : list qop) (l : list Z),
  1 <= cap -> q_run cap ops [] = Some l ->
  exists d, dq_run ops (dq_new cap) = Ok d /\
    dq_empty d = match l with [] => true | _ => false end /\
    (l <> [] -> dq_front d = Ok (hd 0 l) /\ dq_back d = Ok (last l 0)).
Proof. exact dq_history. Qed.
Example C02_case : q_run 2 [QPush 7; QPush 8; QPopFront; QPush 9; QPopBack; QPush 4] [] = Some [8; 4].
Proof. reflexivity. Qed.

(** ** C03 *)
Theorem C03_warped_is_optimum_f64 : forall ratio a b r,
  pair_ok F64 fin64 2 ratio a b r -> no_overflow F64 a b r ->
  (exists C, dtw_cost F64 a b r C /\
     warpedDistance F64 ratio a b (ninf F64) =
       Ok (ndiv F64 (nsqrt F64 C) (nofZ F64 (2 * Z.max (zlen a) (zlen b))))) /\
  (warpedDistance F64 ratio a b (ninf F64) = Ok (ninf F64) <->
     forall p, ~ warp_path r (zlen a - 1) (zlen b - 1) p).
Proof.
  intros ratio a b r H HO. pair_tac H a b. split.
  - eapply wd_inf; eauto using f64_cost; lia.
  - eapply wd_inf_iff; eauto using f64_cost; lia.
Qed.
Theorem C03_warped_is_optimum_exact : forall ratio a b r,
  pair_ok RX dat_rx 2 ratio a b r ->
  (exists C, dtw_cost RX a b r C /\
     warpedDistance RX ratio a b (ninf RX) =
       Ok (ndiv RX (nsqrt RX C) (nofZ RX (2 * Z.max (zlen a) (zlen b))))) /\
  (warpedDistance RX ratio a b (ninf RX) = Ok (ninf RX) <->
     forall p, ~ warp_path r (zlen a - 1) (zlen b - 1) p).
Proof.
  intros ratio a b r H. pair_tac H a b. pose proof (no_overflow_rx a b r Ha Hb). split.
  - eapply wd_inf; eauto using rx_cost; lia.
  - eapply wd_inf_iff; eauto using rx_cost; lia.
Qed.
Example C03_case : pair_ok F64 fin64 2 half64 ex_a ex_b 2 /\ no_overflow F64 ex_a ex_b 2 /\
  warpedDistance F64 half64 ex_a ex_b (ninf F64) = Ok (ndiv F64 (nsqrt F64 (f64_ofZ 3)) (f64_ofZ 8)).
Proof. split; [exact ex_pair|]. split; [exact ex_no_overflow|]. vm_compute. reflexivity. Qed.
Example C03_case_outside : pair_ok F64 fin64 2 (f64_ofZ 0) ex_a ex_b 0 /\
  warpedDistance F64 (f64_ofZ 0) ex_a ex_b (ninf F64) = Ok (ninf F64).
Proof.
  split; [|vm_compute; reflexivity]. destruct ex_pair as (A & B & C & D & _).
  split; auto. split; auto. split; auto. split; auto. split; [reflexivity|lia].
Qed.

(** ** C04 *)
Theorem C04_warped_symmetric : forall ratio a b r,
  pair_ok F64 fin64 2 ratio a b r -> no_overflow F64 a b r ->
  warpedDistance F64 ratio a b (ninf F64) = warpedDistance F64 ratio b a (ninf F64).
Proof. intros ratio a b r H HO. pair_tac H a b. eapply wd_sym; eauto using f64_cost; lia. Qed.
Theorem C04_warped_symmetric_exact : forall ratio a b r,
  pair_ok RX dat_rx 2 ratio a b r ->
  warpedDistance RX ratio a b (ninf RX) = warpedDistance RX ratio b a (ninf RX).
Proof.
  intros ratio a b r H. pair_tac H a b. eapply wd_sym; eauto using rx_cost; try lia. now apply no_overflow_rx.
Qed.
Theorem C04_pairwise_symmetric : forall a b : list (num F64),
  Forall fin64 a -> Forall fin64 b -> 1 <= zlen a <= 2 ^ 30 -> zlen a = zlen b ->
  pairwiseDistance F64 a b (ninf F64) = pairwiseDistance F64 b a (ninf F64).
Proof.
  intros a b Ha Hb Hl E. assert (K : klen (zlen a)) by (unfold klen; lia). assert (K' : klen (zlen b)) by (rewrite <- E; auto).
  destruct (pairwise_spec F64 _ _ f64_cost a b (ninf F64)) as (w & -> & H1); auto; try lia.
  { apply (c_inorm_pos _ _ _ f64_cost); auto. apply (c_pos_inf _ _ _ f64_cost). }
  destruct (pairwise_spec F64 _ _ f64_cost b a (ninf F64)) as (v & -> & H2); auto; try lia.
  { apply (c_inorm_pos _ _ _ f64_cost); auto. apply (c_pos_inf _ _ _ f64_cost). }
  rewrite (sum_sq_sym F64 _ _ f64_cost b a) in H2 by auto. rewrite <- E in H2. f_equal.
  destruct H1 as [(-> & L1)|(-> & L1)], H2 as [(-> & L2)|(-> & L2)]; auto; exfalso; revert L1 L2; unfold lt, le; congruence.
Qed.
Example C04_case : warpedDistance F64 half64 ex_b ex_a (ninf F64) = Ok (ndiv F64 (nsqrt F64 (f64_ofZ 3)) (f64_ofZ 8)).
Proof. vm_compute. reflexivity. Qed.

(** ** C05 *)
Theorem C05_self_distance_zero : forall ratio a r d,
  pair_ok F64 fin64 1 ratio a a r -> pos64 d ->
  warpedDistance F64 ratio a a d = Ok (f64_ofZ 0) /\ cascadeDistance F64 ratio a a d = Ok (f64_ofZ 0) /\
  pairwiseDistance F64 a a d = Ok (f64_ofZ 0).
Proof.
  intros ratio a r d H Hd. destruct H as (Ha & _ & La & _ & Hband & Hr). rewrite Z.max_id in Hband.
  assert (K : klen (zlen a)) by (unfold klen; lia).
  split; [|split].
  - eapply wd_self; eauto using f64_cost; lia.
  - eapply cascade_self; eauto using f64_cost; lia.
  - assert (P : pos64 (euc_inorm F64 d (zlen a))) by now apply (c_inorm_pos _ _ _ f64_cost).
    destruct (pairwise_spec F64 _ _ f64_cost a a d) as (w & -> & H1); auto; try lia.
    rewrite (sum_sq_self F64 _ _ f64_cost a Ha) in H1. destruct H1 as [(-> & _)|(_ & L)].
    + now rewrite (c_norm_0 _ _ _ f64_cost).
    + exfalso. pose proof (c_0_le _ _ _ f64_cost _ P). revert L H. unfold lt, le. congruence.
Qed.
Theorem C05_never_negative_or_nan : forall ratio a b r d,
  pair_ok F64 fin64 1 ratio a b r ->
  Post (warpedDistance F64 ratio a b d) pos64 /\ Post (keoghLowerBound F64 ratio a b d) pos64 /\
  Post (cascadeDistance F64 ratio a b d) pos64 /\
  (zlen a = zlen b -> pos64 d -> Post (pairwiseDistance F64 a b d) pos64).
Proof.
  intros ratio a b r d H. pair_tac H a b. split; [|split; [|split]].
  - eapply wd_safe; eauto using f64_cost; lia.
  - eapply keogh_safe; eauto using f64_cost; lia.
  - eapply cascade_safe; eauto using f64_cost; lia.
  - intros E Hd. assert (K : klen (zlen a)) by (unfold klen; lia).
    assert (P : pos64 (euc_inorm F64 d (zlen a))) by now apply (c_inorm_pos _ _ _ f64_cost).
    destruct (pairwise_spec F64 _ _ f64_cost a b d) as (w & E1 & H1); auto; try lia.
    eapply Post_intro; [exact E1|]. destruct H1 as [(-> & _)|(-> & _)].
    + apply (c_norm_pos _ _ _ f64_cost); auto. now apply (sum_sq_pos F64 _ _ f64_cost).
    + apply (c_pos_inf _ _ _ f64_cost).
Qed.
Example C05_case : pair_ok F64 fin64 1 half64 ex_a ex_a 2.
Proof.
  destruct ex_pair as (A & B & C & D & _). split; auto. split; auto. split; [lia|]. split; [lia|]. split; [reflexivity|lia].
Qed.

(** ** C06 *)
Theorem C06_keogh_admissible : forall ratio a b r d W,
  pair_ok F64 fin64 2 ratio a b r -> no_overflow F64 a b r ->
  warpedDistance F64 ratio a b (ninf F64) = Ok W ->
  (exists v, keoghLowerBound F64 ratio a b d = Ok v /\ le F64 v W) /\
  (exists v, keoghLowerBound F64 ratio b a d = Ok v /\ le F64 v W) /\
  (exists v, crossKeoghLowerBound F64 ratio a b (ninf F64) = Ok v /\ le F64 v W).
Proof.
  intros ratio a b r d W H HO HW. pair_tac H a b.
  destruct (wd_inf F64 _ _ f64_cost ratio a b r) as (C & HC & E); auto; try lia.
  rewrite HW in E. injection E as ->. split; [|split].
  - destruct (Post_inv _ _ (keogh_le F64 _ _ f64_cost ratio a b r Ha Hb ltac:(lia) ltac:(lia) H Hband Hr d C HC)) as (v & ? & _ & ?). eauto.
  - destruct (Post_inv _ _ (keogh_le' F64 _ _ f64_cost ratio a b r Ha Hb ltac:(lia) ltac:(lia) H Hband Hr d C HC)) as (v & ? & _ & ?). eauto.
  - destruct (Post_inv _ _ (cross_spec F64 _ _ f64_cost ratio a b r Ha Hb ltac:(lia) ltac:(lia) H Hband Hr (ninf F64) C (c_pos_inf _ _ _ f64_cost) HC)) as (v & Ev & Pv & [Hle|(-> & Hlt)]); eauto.
    exfalso. refine (lt_not_le F64 _ _ Hlt _). apply (c_le_inf _ _ _ f64_cost).
    apply (c_ndtw_pos _ _ _ f64_cost); auto.
    exact (dtw_cost_pos F64 _ _ f64_cost a b r Ha Hb Hr C HC).
Qed.
Example C06_case : exists v, keoghLowerBound F64 half64 (map f64_ofZ [0; 1; 2; 3]) (map f64_ofZ [9; 9; 9]) (ninf F64) = Ok v /\ lt F64 (f64_ofZ 1) v.
Proof. eexists. split; vm_compute; reflexivity. Qed.

(** ** C07 *)
Theorem C07_cascade_inf_or_warped : forall ratio a b r d,
  pair_ok F64 fin64 2 ratio a b r -> no_overflow F64 a b r -> pos64 d ->
  exists W w lb, warpedDistance F64 ratio a b (ninf F64) = Ok W /\
    cascadeDistance F64 ratio a b d = Ok w /\ (w = W \/ w = ninf F64) /\
    crossKeoghLowerBound F64 ratio a b d = Ok lb /\
    (lt F64 d lb -> w = ninf F64 /\ lt F64 d W).
Proof.
  intros ratio a b r d H HO Hd. pair_tac H a b.
  destruct (wd_inf F64 _ _ f64_cost ratio a b r) as (C & HC & E); auto; try lia.
  destruct (cascade_spec F64 _ _ f64_cost ratio a b r Ha Hb ltac:(lia) ltac:(lia) H Hband Hr HO d C Hd HC) as (w & Ew & Hw).
  destruct (Post_inv _ _ (cross_spec F64 _ _ f64_cost ratio a b r Ha Hb ltac:(lia) ltac:(lia) H Hband Hr d C Hd HC)) as (v & Ev & Pv & Hv).
  assert (PC : pos64 C) by exact (dtw_cost_pos F64 _ _ f64_cost a b r Ha Hb Hr C HC).
  assert (PW : pos64 (euc_norm_dtw F64 C (Z.max (zlen a) (zlen b)))) by now apply (c_ndtw_pos _ _ _ f64_cost).
  eexists _, w, v. split; [exact E|]. split; [exact Ew|]. split; [|split; [exact Ev|]].
  - destruct Hw as [(-> & _)|[->|(-> & _)]]; auto.
  - intros Hlt. split.
    + unfold cascadeDistance in Ew. rewrite Ev in Ew. cbn [bind] in Ew. unfold lt in Hlt. rewrite Hlt in Ew. congruence.
    + destruct Hv as [Hle|(_ & Hl)]; auto.
      apply (lt_le_trans _ _ (c_pos_ord _ _ _ f64_cost) _ v _); auto.
Qed.

(** ** C08 *)
Theorem C08_early_abandon_exact : forall ratio a b r d,
  pair_ok RX dat_rx 2 ratio a b r -> pos_rx d ->
  exists W w c, warpedDistance RX ratio a b (ninf RX) = Ok W /\
    warpedDistance RX ratio a b d = Ok w /\ cascadeDistance RX ratio a b d = Ok c /\
    (le RX W d -> w = W /\ c = W) /\
    (lt RX d W -> (w = W \/ w = ninf RX) /\ (c = W \/ c = ninf RX)).
Proof.
  intros ratio a b r d H Hd. pair_tac H a b. pose proof (no_overflow_rx a b r Ha Hb) as HO.
  destruct (wd_drop RX _ _ rx_cost ratio a b r Ha Hb ltac:(lia) ltac:(lia) H Hband Hr HO d Hd) as (C & w & HC & E & PW & PC & Ew & Hw).
  destruct (cascade_spec RX _ _ rx_cost ratio a b r Ha Hb ltac:(lia) ltac:(lia) H Hband Hr HO d C Hd HC) as (c & Ec & Hc).
  eexists _, w, c. split; [exact E|]. split; [exact Ew|]. split; [exact Ec|].
  assert (X : lt RX (euc_inorm_dtw RX d (Z.max (zlen a) (zlen b))) C -> lt RX d (euc_norm_dtw RX C (Z.max (zlen a) (zlen b)))).
  { unfold lt. now rewrite (e_dtw _ _ _ rx_exact) by auto. }
  split.
  - intros Hle. split.
    + destruct Hw as [->|(_ & Hl)]; auto. elim (lt_not_le RX _ _ (X Hl) Hle).
    + destruct Hc as [(_ & Hl)|[->|(_ & Hl)]]; auto.
      * elim (lt_not_le RX _ _ Hl Hle).
      * elim (lt_not_le RX _ _ (X Hl) Hle).
  - intros _. split.
    + destruct Hw as [->|(-> & _)]; auto.
    + destruct Hc as [(-> & _)|[->|(-> & _)]]; auto.
Qed.
Theorem C08_early_abandon_f64 : forall ratio a b r d,
  pair_ok F64 fin64 2 ratio a b r -> no_overflow F64 a b r -> pos64 d ->
  exists W w c, warpedDistance F64 ratio a b (ninf F64) = Ok W /\
    warpedDistance F64 ratio a b d = Ok w /\ cascadeDistance F64 ratio a b d = Ok c /\
    (w = W \/ (w = ninf F64 /\ forall y, fin64 y -> lt F64 y d -> le F64 y W)) /\
    (c = W \/ (c = ninf F64 /\ forall y, fin64 y -> lt F64 y d -> le F64 y W)).
Proof.
  intros ratio a b r d H HO Hd. pair_tac H a b.
  destruct (wd_drop F64 _ _ f64_cost ratio a b r Ha Hb ltac:(lia) ltac:(lia) H Hband Hr HO d Hd) as (C & w & HC & E & PW & PC & Ew & Hw).
  destruct (cascade_spec F64 _ _ f64_cost ratio a b r Ha Hb ltac:(lia) ltac:(lia) H Hband Hr HO d C Hd HC) as (c & Ec & Hc).
  eexists _, w, c. split; [exact E|]. split; [exact Ew|]. split; [exact Ec|]. split.
  - destruct Hw as [->|(-> & Hl)]; auto. right. split; auto. now apply drop_margin.
  - destruct Hc as [(-> & Hl)|[->|(-> & Hl)]]; auto; right; (split; [reflexivity|]).
    + intros y Fy Hy. apply lt64 in Hl; auto using pos_ok. apply lt64 in Hy; auto using pos_ok, fin_ok.
      apply le64; auto using pos_ok, fin_ok. lra.
    + now apply drop_margin.
Qed.
(** A candidate one unit in the last place better than the dropout is discarded. *)
Definition C08_d : spec_float := S754_finite false 7354347395230782 (-54).
Theorem C08_float_discard_witness : exists ratio a b r d W,
  pair_ok F64 fin64 2 ratio a b r /\ no_overflow F64 a b r /\ pos64 d /\
  warpedDistance F64 ratio a b (ninf F64) = Ok W /\ lt F64 W d /\
  warpedDistance F64 ratio a b d = Ok (ninf F64).
Proof.
  exists (f64_ofZ 0), (map f64_ofZ [2; 1; 1]), (map f64_ofZ [0; 0; 0]), 0, C08_d. eexists.
  split; [|split; [|split; [|split; [vm_compute; reflexivity|split; vm_compute; reflexivity]]]].
  - split; [now apply fin64_Zs|]. split; [now apply fin64_Zs|].
    split; [vm_compute; split; discriminate|]. split; [vm_compute; split; discriminate|]. split; [reflexivity|lia].
  - apply no_overflow_64; try (now apply small64_Zs); vm_compute; discriminate.
  - split; reflexivity.
Qed.

(** ** C09 *)
Theorem C09_pairwise_f64 : forall (a b : list (num F64)) d,
  Forall fin64 a -> Forall fin64 b -> 1 <= zlen a <= 2 ^ 30 -> zlen a = zlen b -> pos64 d ->
  exists w, pairwiseDistance F64 a b d = Ok w /\
    (w = nsqrt F64 (ndiv F64 (sum_sq F64 a b) (nofZ F64 (zlen a))) \/ w = ninf F64) /\
    (d = ninf F64 -> w = nsqrt F64 (ndiv F64 (sum_sq F64 a b) (nofZ F64 (zlen a))) /\
                     (w = ninf F64 -> sum_sq F64 a b = ninf F64)).
Proof.
  intros a b d Ha Hb Hl E Hd. assert (K : klen (zlen a)) by (unfold klen; lia).
  assert (P : pos64 (euc_inorm F64 d (zlen a))) by now apply (c_inorm_pos _ _ _ f64_cost).
  destruct (pairwise_spec F64 _ _ f64_cost a b d) as (w & Ew & Hw); auto; try lia.
  pose proof (sum_sq_pos F64 _ _ f64_cost a b Ha Hb) as PS.
  exists w. split; auto. split; [destruct Hw as [(-> & _)|(-> & _)]; auto|].
  intros ->. rewrite (c_inorm_inf _ _ _ f64_cost) in Hw by auto. destruct Hw as [(-> & _)|(_ & Hlt)].
  - split; auto. intros HI. destruct (le_or_lt F64 (ninf F64) (sum_sq F64 a b)) as [H|H].
    + now apply (inf_max F64 _ _ f64_cost).
    + pose proof (c_norm_fin _ _ _ f64_cost _ _ K PS H) as Hf. fold (euc_norm F64 (sum_sq F64 a b) (zlen a)) in HI.
      rewrite HI in Hf. discriminate Hf.
  - exfalso. eapply lt_not_le; [exact Hlt|]. now apply (c_le_inf _ _ _ f64_cost).
Qed.
Theorem C09_pairwise_exact : forall (a b : list (num RX)) d,
  Forall dat_rx a -> Forall dat_rx b -> 1 <= zlen a <= 2 ^ 30 -> zlen a = zlen b -> pos_rx d ->
  let V := nsqrt RX (ndiv RX (sum_sq RX a b) (nofZ RX (zlen a))) in
  pairwiseDistance RX a b d = Ok (if nltb RX d V then ninf RX else V).
Proof.
  intros a b d Ha Hb Hl E Hd V. assert (K : klen (zlen a)) by (unfold klen; lia).
  assert (P : pos_rx (euc_inorm RX d (zlen a))) by now apply (c_inorm_pos _ _ _ rx_cost).
  destruct (pairwise_spec RX _ _ rx_cost a b d) as (w & -> & Hw); auto; try lia.
  pose proof (sum_sq_pos RX _ _ rx_cost a b Ha Hb) as PS.
  change V with (euc_norm RX (sum_sq RX a b) (zlen a)).
  rewrite <- (e_norm _ _ _ rx_exact) by auto. unfold lt, le in Hw. f_equal.
  destruct Hw as [(-> & ->)|(-> & ->)]; auto.
Qed.
Theorem C09_pairwise_different_lengths : forall a b d, zlen a <> zlen b ->
  exists msg, pairwiseDistance F64 a b d = Throw (OnexExn msg).
Proof.
  intros a b d H. unfold pairwiseDistance. apply Z.eqb_neq in H. rewrite H. eexists. reflexivity.
Qed.
Example C09_case : pairwiseDistance F64 (map f64_ofZ [0; 3; 5; 5]) (map f64_ofZ [2; 3; 5; 5]) (ninf F64) = Ok (f64_ofZ 1) /\
  pairwiseDistance F64 (map f64_ofZ [0; 3; 5; 5]) (map f64_ofZ [2; 3; 5; 5]) half64 = Ok (ninf F64).
Proof. vm_compute. split; reflexivity. Qed.

(** ** C10 *)
Theorem C10_pairwise_metric : forall a b c : list R,
  1 <= zlen a <= 2 ^ 30 -> zlen b = zlen a -> zlen c = zlen a ->
  exists ab bc ac : R,
    pairwiseDistance RX (map Fin a) (map Fin b) PInf = Ok (Fin ab) /\
    pairwiseDistance RX (map Fin b) (map Fin c) PInf = Ok (Fin bc) /\
    pairwiseDistance RX (map Fin a) (map Fin c) PInf = Ok (Fin ac) /\
    (0 <= ab)%R /\ (ac <= ab + bc)%R /\
    pairwiseDistance RX (map Fin b) (map Fin a) PInf = Ok (Fin ab) /\
    (ab = 0%R <-> a = b).
Proof. exact pairwise_metric. Qed.

(** ** C11 *)
Theorem C11_length_one_breaks_band_and_dropout : exists ratio a b r d w,
  zlen a = 3 /\ zlen b = 1 /\ Forall small64 a /\ Forall small64 b /\
  calculateWarpingBandSize F64 ratio (Z.max (zlen a) (zlen b)) = Ok r /\
  (forall p, ~ warp_path r (zlen a - 1) (zlen b - 1) p) /\
  warpedDistance F64 ratio a b (ninf F64) = Ok w /\ lt F64 w (ninf F64) /\
  fin64 d /\ lt F64 w d /\ warpedDistance F64 ratio a b d = Ok (ninf F64).
Proof.
  exists (S754_finite false 7205759403792794 (-54)), (map f64_ofZ [1; 2; 3]), (map f64_ofZ [1]), 1, (f64_ofZ 1000000).
  eexists. split; [reflexivity|]. split; [reflexivity|].
  split; [now apply small64_Zs|]. split; [now apply small64_Zs|]. split; [vm_compute; reflexivity|].
  split. { intros p Hp. apply path_range in Hp as (_ & _ & X); [|lia]. vm_compute in X. now apply X. }
  split; [vm_compute; reflexivity|]. split; [vm_compute; reflexivity|].
  split; [apply small_fin, small64_Z; vm_compute; discriminate|]. split; vm_compute; reflexivity.
Qed.

(** ** C12 *)
Theorem C12_overflow_breaks_warped : exists ratio a b r,
  pair_ok F64 fin64 2 ratio a b r /\ zlen a = zlen b /\ a <> b /\
  warpedDistance F64 ratio a b (ninf F64) = Ok (f64_ofZ 0).
Proof.
  exists (f64_ofZ 0), [f64_ofZ (2 ^ 600); f64_ofZ 0], [f64_ofZ 0; f64_ofZ 0], 0.
  split; [|split; [reflexivity|split; [intros H; vm_compute in H; discriminate|vm_compute; reflexivity]]].
  split; [repeat constructor; vm_compute; auto|]. split; [repeat constructor; vm_compute; auto|].
  split; [vm_compute; split; discriminate|]. split; [vm_compute; split; discriminate|]. split; [vm_compute; reflexivity|lia].
Qed.
Theorem C12_bounded_data_safe : forall a b r,
  Forall small64 a -> Forall small64 b -> zlen a <= 2 ^ 20 -> zlen b <= 2 ^ 20 ->
  no_overflow F64 a b r.
Proof. exact no_overflow_64. Qed.

(** ** C13 *)
Theorem C13_kim_lower_bound : forall a b r C,
  Forall dat_rx a -> Forall dat_rx b -> dtw_cost RX a b r C ->
  (3 <= Z.min (zlen a) (zlen b) /\ 6 <= Z.max (zlen a) (zlen b)) \/ Z.min (zlen a) (zlen b) = 4 ->
  exists k, kimLowerBound RX a b (ninf RX) = Ok k /\ le RX k C.
Proof. intros a b r C Ha Hb. exact (kim_admissible a b Ha Hb r C). Qed.
Theorem C13_kim_throws_on_length_two : forall a b, Forall dat_rx a -> Forall dat_rx b ->
  Z.min (zlen a) (zlen b) = 2 ->
  kimLowerBound RX a b (ninf RX) = Throw (OnexExn "Data point index is out of range").
Proof. exact kim_len2. Qed.
(** 3x3 and 5x5 series whose distance is below the (normalised) bound. *)
Theorem C13_kim_not_admissible_short : 
  (exists a b C k, zlen a = 3 /\ zlen b = 3 /\ Forall small64 a /\ Forall small64 b /\
     dtw_cost F64 a b 2 C /\ kimLowerBound F64 a b (ninf F64) = Ok k /\ lt F64 C k) /\
  (exists a b C k, zlen a = 5 /\ zlen b = 5 /\ Forall small64 a /\ Forall small64 b /\
     dtw_cost F64 a b 4 C /\ kimLowerBound F64 a b (ninf F64) = Ok k /\ lt F64 C k).
Proof. exact kim_short_fails. Qed.

(** ** C14 *)
Theorem C14_band_in_range_f64 : forall ratio k, 1 <= k <= 2 ^ 30 -> fin64 ratio -> (0 <= val ratio <= 1)%R ->
  exists r, calculateWarpingBandSize F64 ratio k = Ok r /\ 0 <= r <= k - 1 /\
    (forall k', k <= k' <= 2 ^ 30 -> exists r', calculateWarpingBandSize F64 ratio k' = Ok r' /\ r <= r') /\
    (k <= 2 ^ 26 -> exists r', calculateWarpingBandSize F64 ratio (k + 1) = Ok r' /\ k - r <= (k + 1) - r').
Proof.
  intros ratio k Hk F H. assert (R : ratio64 ratio) by (split; auto).
  exists (band64 ratio k). split; [apply band64_Ok; auto|]. split; [apply band64_range; auto|]. split.
  - intros k' Hk'. exists (band64 ratio k'). split; [apply band64_Ok; auto; unfold klen; lia|]. apply band64_mono; auto; lia.
  - intros Hk'. exists (band64 ratio (k + 1)). split; [apply band64_Ok; auto; unfold klen; lia|].
    pose proof (band64_step k ratio ltac:(lia) R). lia.
Qed.
Theorem C14_band_in_range_exact : forall (ratio : R) k, 1 <= k < 2 ^ 30 -> (0 <= ratio <= 1)%R ->
  exists r, calculateWarpingBandSize RX (Fin ratio) k = Ok r /\ 0 <= r <= k - 1 /\
    (forall k', k <= k' <= 2 ^ 30 -> exists r', calculateWarpingBandSize RX (Fin ratio) k' = Ok r' /\ r <= r') /\
    (exists r', calculateWarpingBandSize RX (Fin ratio) (k + 1) = Ok r' /\ k - r <= (k + 1) - r').
Proof.
  intros ratio k Hk H. assert (K : klen k) by (unfold klen; lia).
  exists (band_rx ratio k). split; [apply band_rx_Ok; auto|]. split; [apply band_rx_range; auto|]. split.
  - intros k' Hk'. exists (band_rx ratio k'). split; [apply band_rx_Ok; auto; unfold klen; lia|]. apply band_rx_mono; auto; lia.
  - exists (band_rx ratio (k + 1)). split; [apply band_rx_Ok; auto; unfold klen; lia|].
    pose proof (band_rx_step k ratio ltac:(lia) H). lia.
Qed.
Theorem C14_band_large_ratio : forall ratio k, 1 <= k <= 2 ^ 30 -> fin64 ratio ->
  ((1 <= val ratio)%R -> (IZR k * val ratio <= IZR int_max)%R -> calculateWarpingBandSize F64 ratio k = Ok (k - 1)) /\
  ((IZR (2 ^ 31) <= IZR k * val ratio)%R -> calculateWarpingBandSize F64 ratio k = UB BadConv).
Proof. intros ratio k Hk F. split; [now apply band64_above1|now apply band64_huge]. Qed.
Example C14_case : calculateWarpingBandSize F64 half64 7 = Ok 3 /\
  calculateWarpingBandSize F64 (f64_ofZ 3) 7 = Ok 6 /\
  calculateWarpingBandSize F64 (f64_ofZ 1000000000) 7 = UB BadConv.
Proof. vm_compute. auto. Qed.

(** ** C15 *)
Theorem C15_traverse_terminates : forall ratio q n, generateTraverseOrder F64 ratio q n <> NoFuel.
Proof. exact (traverse_terminates F64). Qed.
Theorem C15_traverse_order : forall ratio q n,
  fin64 ratio -> (0 <= val ratio <= 1)%R -> 1 <= q <= 2 ^ 26 -> n <= 2 ^ 26 ->
  exists order, generateTraverseOrder F64 ratio q n = Ok order /\
    hd_error order = Some q /\ NoDup order /\
    (forall L, In L order -> L = q \/ 2 <= L <= Z.max q n) /\
    (forall L, 2 <= L <= n ->
       (In L order <-> L = q \/ exists r, calculateWarpingBandSize F64 ratio (Z.max L q) = Ok r /\ Z.abs (L - q) <= r)) /\
    StronglySorted Z.gt (filter (fun L => L <? q) order) /\
    StronglySorted Z.lt (filter (fun L => q <? L) order).
Proof.
  intros ratio q n F H Hq Hn. assert (R : ratio64 ratio) by (split; auto).
  assert (B : forall k, 1 <= k <= Z.max q n -> calculateWarpingBandSize F64 ratio k = Ok (band64 ratio k))
    by (intros k Hk; apply band64_Ok; auto; unfold klen; lia).
  destruct (traverse_inv F64 ratio q n (band64 ratio) ltac:(lia) B) as (order & E & _).
  exists order. split; auto.
  destruct (traverse_sound F64 ratio q n (band64 ratio) ltac:(lia) B order E) as (H1 & H2 & H3 & H4 & H5).
  split; auto. split; auto. split. { intros L HL. destruct (H3 L HL) as [|(? & _)]; auto. }
  split; auto. intros L HL. split.
  - intros Hin. destruct (H3 L Hin) as [|(? & ?)]; auto. right. exists (band64 ratio (Z.max L q)). split; auto. apply B. lia.
  - intros [->|(r & Er & Hr)].
    + destruct order as [|x order]; [discriminate|]. cbn in H1. injection H1 as ->. now left.
    + apply (traverse_complete F64 ratio q n (band64 ratio) ltac:(lia) B) with (order := order); auto.
      * intros k Hk Hk'. apply band64_step; auto. lia.
      * rewrite B in Er by lia. congruence.
Qed.
Example C15_case : generateTraverseOrder F64 half64 4 9 = Ok [4; 3; 5; 2; 6; 7; 8].
Proof. vm_compute. reflexivity. Qed.

(** ** C16 *)
Theorem C16_skipped_lengths_have_no_match : forall ratio n (q s : list (num F64)) order,
  fin64 ratio -> (0 <= val ratio <= 1)%R -> 2 <= zlen q <= 2 ^ 20 -> n <= 2 ^ 20 ->
  Forall small64 q -> Forall small64 s -> 2 <= zlen s <= n ->
  generateTraverseOrder F64 ratio (zlen q) n = Ok order -> ~ In (zlen s) order ->
  warpedDistance F64 ratio q s (ninf F64) = Ok (ninf F64).
Proof.
  intros ratio n q s order F H Hq Hn Sq Ss Hs E Hin.
  assert (R : ratio64 ratio) by (split; auto).
  destruct (C15_traverse_order ratio (zlen q) n) as (o & Eo & _ & _ & _ & HL & _); auto; try lia.
  rewrite E in Eo. injection Eo as <-. specialize (HL (zlen s) Hs).
  assert (K : klen (Z.max (zlen q) (zlen s))) by (unfold klen; lia).
  assert (P : pair_ok F64 fin64 2 ratio q s (band64 ratio (Z.max (zlen q) (zlen s)))).
  { split; [eapply Forall_impl; [apply small_fin|auto]|]. split; [eapply Forall_impl; [apply small_fin|auto]|].
    split; [lia|]. split; [lia|]. split; [now apply band64_Ok|]. apply (band64_range _ ratio); auto. }
  destruct (C03_warped_is_optimum_f64 _ _ _ _ P) as (_ & W).
  { change (num F64) with spec_float in *; apply no_overflow_64; auto; lia. }
  apply W. intros p Hp. apply path_range in Hp as (_ & _ & Hp); [|apply (band64_range _ ratio); auto]. apply Hin, HL. right.
  exists (band64 ratio (Z.max (zlen q) (zlen s))). split; [rewrite Z.max_comm; now apply band64_Ok|]. lia.
Qed.
Example C16_case : exists order, generateTraverseOrder F64 half64 4 9 = Ok order /\ ~ In 9 order.
Proof. eexists. split; [vm_compute; reflexivity|]. cbn. lia. Qed.
