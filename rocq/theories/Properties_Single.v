(** * Property C69: the distances of the single-precision build.

    [F32] (Single.v) is the arithmetic of the build with SINGLE_PRECISION: [Sg x] is the float [x],
    [Db x] the double [x].  [B32]: the operations on floats alone.  [fin32]: a finite float; [ok32]: a
    float that is not NaN; [pos32]: a float that is +0, positive or infinity.  The notions of window
    minimum, warping path and optimal cost are those of Spec.v, with costs accumulated in floats. *)
From Coq Require Import ZArith Bool Reals Lra Lia SpecFloat List.
From Verif Require Import Outcome Num Single Lemire Distance Laws F32Base F32Laws F32Numeric Spec.
From Verif Require Import DtwProofs LemireProofs KeoghProofs SafeDist SingleProofs.
From Verif Require Numeric.
Import ListNotations.
Open Scope Z_scope.

(** Two series of at least [lo] finite floats, short enough for int arithmetic, and the half width
    [r >= 0] of the band, which the code computes in double from the ratio. *)
Definition floats_ok (lo : Z) (ratio : spec_float) (a b : list spec_float) (r : Z) : Prop :=
  Forall fin32 a /\ Forall fin32 b /\ lo <= zlen a <= 2 ^ 30 /\ lo <= zlen b <= 2 ^ 30 /\
  calculateWarpingBandSize F64 ratio (Z.max (zlen a) (zlen b)) = Ok r /\ 0 <= r.

(** The three distances and the lower bound of the build, on floats. *)
Definition warpedS ratio (a b : list spec_float) d := warpedDistance F32 (Db ratio) (map Sg a) (map Sg b) (Sg d).
Definition cascadeS ratio (a b : list spec_float) d := cascadeDistance F32 (Db ratio) (map Sg a) (map Sg b) (Sg d).
Definition keoghS ratio (a b : list spec_float) d := keoghLowerBound F32 (Db ratio) (map Sg a) (map Sg b) (Sg d).
Definition pairwiseS (a b : list spec_float) d := pairwiseDistance F32 (map Sg a) (map Sg b) (Sg d).
Definition infS : spec_float := S754_infinity false.

Ltac start H a b := destruct H as (Ha & Hb & La & Lb & Hband & Hr);
  apply fin_map in Ha; apply fin_map in Hb;
  rewrite <- (zlen_map Sg a) in La, Hband; rewrite <- (zlen_map Sg b) in Lb, Hband;
  rewrite <- band_S in Hband by lia;
  assert (H : klen (Z.max (zlen (map Sg a)) (zlen (map Sg b)))) by (unfold klen; lia).

Ltac len := match goal with
  | L : 2 <= _ <= 2 ^ 30 |- _ => first [exact (proj1 L) | clear L; len]
  | L : 1 <= _ <= 2 ^ 30 |- _ => first [exact (proj1 L) | clear L; len]
  end.

Lemma Ok_inj (x y : num F32) : Ok x = Ok y -> x = y.
Proof. congruence. Qed.

Theorem C69_envelope : forall (a : list spec_float) (r : Z),
  Forall ok32 a -> 1 <= zlen a -> 0 <= r ->
  exists lower upper, generateKeoghLU F32 (map Sg a) r = Ok (lower, upper) /\
    zlen lower = zlen a /\ zlen upper = zlen a /\
    forall i, 0 <= i < zlen a ->
      (exists x, zget lower i = Ok (Some (Sg x)) /\
         is_window_min B32 a (Z.max 0 (i - r)) (Z.min (zlen a - 1) (i + r)) x) /\
      (exists x, zget upper i = Ok (Some (Sg x)) /\
         is_window_max B32 a (Z.max 0 (i - r)) (Z.min (zlen a - 1) (i + r)) x).
Proof.
  intros a r Ha Hl Hr. assert (Ha' : Forall okS (map Sg a)) by (apply Forall_map; exact Ha).
  destruct (Post_inv _ _ (generateKeoghLU_spec F32 okS f32_ordS (map Sg a) r Ha' ltac:(rewrite zlen_map; lia) Hr))
    as ((l & u) & E & H1 & H2 & H). exists l, u. cbn [fst snd] in *. rewrite !zlen_map in *.
  split; auto. split; auto. split; auto. intros i Hi.
  destruct (H i Hi) as ((x & Ex & (kx & Bx & ->) & Mx) & (y & Ey & (ky & By & ->) & My)).
  rewrite at_Sg in Ex, Ey. split.
  - exists (at_ B32 a kx). split; auto. split; [eauto|]. intros k Hk. specialize (Mx k Hk). rewrite !at_Sg in Mx. exact Mx.
  - exists (at_ B32 a ky). split; auto. split; [eauto|]. intros k Hk. specialize (My k Hk). rewrite !at_Sg in My. exact My.
Qed.

Theorem C69_warped_is_optimum : forall ratio a b r,
  floats_ok 2 ratio a b r -> no_overflow B32 a b r ->
  (exists C, dtw_cost B32 a b r C /\
     warpedS ratio a b infS = Ok (Sg (ndiv B32 (nsqrt B32 C) (f32_ofZ (2 * Z.max (zlen a) (zlen b)))))) /\
  (warpedS ratio a b infS = Ok (Sg infS) <-> forall p, ~ warp_path r (zlen a - 1) (zlen b - 1) p).
Proof.
  intros ratio a b r H HO. start H a b. apply no_overflow_Sg in HO. split.
  - destruct (wd_inf F32 _ _ f32_cost (Db ratio) (map Sg a) (map Sg b) r) as (C & HC & E); auto; try len.
    apply dtw_cost_Sg in HC as (c & -> & HC). exists c. split; auto. unfold warpedS, infS.
    change (Sg (S754_infinity false)) with (ninf F32). rewrite E. rewrite ndtw_Sg, !zlen_map. reflexivity.
  - rewrite <- (zlen_map Sg a), <- (zlen_map Sg b).
    apply (wd_inf_iff F32 _ _ f32_cost (Db ratio) (map Sg a) (map Sg b) r); auto; len.
Qed.

Theorem C69_symmetric : forall ratio a b r,
  floats_ok 2 ratio a b r -> no_overflow B32 a b r -> warpedS ratio a b infS = warpedS ratio b a infS.
Proof.
  intros ratio a b r H HO. start H a b. apply no_overflow_Sg in HO.
  apply (wd_sym F32 _ _ f32_cost (Db ratio) (map Sg a) (map Sg b) r); auto; len.
Qed.

Theorem C69_self_zero : forall ratio a r d, floats_ok 1 ratio a a r -> pos32 d ->
  warpedS ratio a a d = Ok (Sg (f32_ofZ 0)) /\ cascadeS ratio a a d = Ok (Sg (f32_ofZ 0)) /\
  pairwiseS a a d = Ok (Sg (f32_ofZ 0)).
Proof.
  intros ratio a r d H Hd. destruct H as (Ha & _ & La & _ & Hband & Hr). rewrite Z.max_id in Hband.
  apply fin_map in Ha. rewrite <- (zlen_map Sg a) in La, Hband. rewrite <- band_S in Hband by lia.
  assert (H : klen (zlen (map Sg a))) by (unfold klen; lia).
  change (Sg (f32_ofZ 0)) with (nzero F32). split; [|split].
  - apply (wd_self F32 _ _ f32_cost (Db ratio) (map Sg a) r); auto; len.
  - apply (cascade_self F32 _ _ f32_cost (Db ratio) (map Sg a) r); auto; len.
  - assert (P : posS (euc_inorm F32 (Sg d) (zlen (map Sg a)))) by now apply (c_inorm_pos _ _ _ f32_cost).
    destruct (pairwise_spec F32 _ _ f32_cost (map Sg a) (map Sg a) (Sg d)) as (w & E & H1); auto; try len.
    unfold pairwiseS. rewrite E. rewrite (sum_sq_self F32 _ _ f32_cost (map Sg a) Ha) in H1. destruct H1 as [(-> & _)|(_ & L)].
    + now rewrite (c_norm_0 _ _ _ f32_cost).
    + exfalso. apply (lt_not_le F32 _ _ L). exact (c_0_le _ _ _ f32_cost _ P).
Qed.

(** No distance or bound is negative or NaN; the dropout is any float. *)
Theorem C69_never_negative_or_nan : forall ratio a b r d, floats_ok 1 ratio a b r ->
  (exists w, warpedS ratio a b d = Ok (Sg w) /\ pos32 w) /\
  (exists w, keoghS ratio a b d = Ok (Sg w) /\ pos32 w) /\
  (exists w, cascadeS ratio a b d = Ok (Sg w) /\ pos32 w).
Proof.
  intros ratio a b r d H. start H a b.
  assert (X : forall o, Post o posS -> exists w, o = Ok (Sg w) /\ pos32 w).
  { intros o Ho. destruct (Post_inv _ _ Ho) as (v & -> & Hv). apply posS_inv in Hv as (x & -> & Hx). eauto. }
  split; [|split]; apply X.
  - eapply (wd_safe F32 _ _ f32_cost); eauto; len.
  - eapply (keogh_safe F32 _ _ f32_cost); eauto; len.
  - eapply (cascade_safe F32 _ _ f32_cost); eauto; len.
Qed.

Theorem C69_keogh_admissible : forall ratio a b r d W,
  floats_ok 2 ratio a b r -> no_overflow B32 a b r -> warpedS ratio a b infS = Ok (Sg W) ->
  (exists v, keoghS ratio a b d = Ok (Sg v) /\ le B32 v W) /\
  (exists v, keoghS ratio b a d = Ok (Sg v) /\ le B32 v W).
Proof.
  intros ratio a b r d W H HO HW. start H a b. apply no_overflow_Sg in HO.
  destruct (wd_inf F32 _ _ f32_cost (Db ratio) (map Sg a) (map Sg b) r) as (C & HC & E); auto; try len.
  unfold warpedS, infS in HW. change (Sg (S754_infinity false)) with (ninf F32) in HW. 
  pose proof (Ok_inj _ _ (eq_trans (eq_sym E) HW)) as HW'. clear HW.
  split.
  - destruct (Post_inv _ _ (keogh_le F32 _ _ f32_cost (Db ratio) (map Sg a) (map Sg b) r Ha Hb (proj1 La) (proj1 Lb) H Hband Hr (Sg d) C HC)) as (v & Ev & Pv & Lv).
    rewrite HW' in Lv. apply posS_inv in Pv as (x & -> & Px). exists x. split; auto.
  - destruct (Post_inv _ _ (keogh_le' F32 _ _ f32_cost (Db ratio) (map Sg a) (map Sg b) r Ha Hb (proj1 La) (proj1 Lb) H Hband Hr (Sg d) C HC)) as (v & Ev & Pv & Lv).
    rewrite HW' in Lv. apply posS_inv in Pv as (x & -> & Px). exists x. split; auto.
Qed.

(** With a dropout the distance is the full one or infinity, and then no float below the dropout is
    above the full distance: what is discarded is at most one unit in the last place too good. *)
Theorem C69_early_abandon : forall ratio a b r d,
  floats_ok 2 ratio a b r -> no_overflow B32 a b r -> pos32 d ->
  exists W w c, warpedS ratio a b infS = Ok (Sg W) /\
    warpedS ratio a b d = Ok (Sg w) /\ cascadeS ratio a b d = Ok (Sg c) /\
    (w = W \/ (w = infS /\ forall y, fin32 y -> lt B32 y d -> le B32 y W)) /\
    (c = W \/ (c = infS /\ forall y, fin32 y -> lt B32 y d -> le B32 y W)).
Proof.
  intros ratio a b r d H HO Hd. start H a b. apply no_overflow_Sg in HO.
  assert (Pd : posS (Sg d)) by exact Hd.
  destruct (wd_drop F32 _ _ f32_cost (Db ratio) (map Sg a) (map Sg b) r Ha Hb (proj1 La) (proj1 Lb) H Hband Hr HO (Sg d) Pd) as (C & w & HC & E & PW & PC & Ew & Hw).
  destruct (cascade_spec F32 _ _ f32_cost (Db ratio) (map Sg a) (map Sg b) r Ha Hb (proj1 La) (proj1 Lb) H Hband Hr HO (Sg d) C Pd HC) as (c & Ec & Hc).
  apply posS_inv in PC as (C' & -> & PC). rewrite ndtw_Sg in *. rewrite idtw_Sg in *. rewrite !zlen_map in *.
  set (k := Z.max (zlen a) (zlen b)) in *. set (W := euc_norm_dtw B32 C' k) in *.
  assert (M : lt F32 (Sg (euc_inorm_dtw B32 d k)) (Sg C') -> forall y, fin32 y -> lt B32 y d -> le B32 y W).
  { intros Hl. apply drop_margin32; auto. }
  assert (M' : lt F32 (Sg d) (Sg W) -> forall y, fin32 y -> lt B32 y d -> le B32 y W).
  { intros Hl y Fy Hy. change (lt B32 d W) in Hl. change (pos32 W) in PW.
    apply lt32 in Hl; auto using pos_ok. apply lt32 in Hy; auto using pos_ok, fin_ok.
    apply le32; auto using pos_ok, fin_ok. lra. }
  assert (Xw : exists w', w = Sg w' /\ (w' = W \/ w' = infS /\ forall y, fin32 y -> lt B32 y d -> le B32 y W)).
  { destruct Hw as [->|(-> & Hl)]; eauto. exists infS. split; [reflexivity|]. right. split; auto. }
  assert (Xc : exists c', c = Sg c' /\ (c' = W \/ c' = infS /\ forall y, fin32 y -> lt B32 y d -> le B32 y W)).
  { destruct Hc as [(-> & Hl)|[->|(-> & Hl)]]; eauto; exists infS; (split; [reflexivity|]); right; split; auto. }
  destruct Xw as (w' & -> & Xw). destruct Xc as (c' & -> & Xc).
  exists W, w', c'. repeat split; auto.
Qed.

Theorem C69_pairwise : forall a b d,
  Forall fin32 a -> Forall fin32 b -> 1 <= zlen a <= 2 ^ 30 -> zlen a = zlen b -> pos32 d ->
  let V := nsqrt B32 (ndiv B32 (sum_sq B32 a b) (f32_ofZ (zlen a))) in
  exists w, pairwiseS a b d = Ok (Sg w) /\ (w = V \/ w = infS) /\ (d = infS -> w = V).
Proof.
  intros a b d Ha Hb Hl E Hd V. apply fin_map in Ha. apply fin_map in Hb.
  rewrite <- (zlen_map Sg a) in Hl, E. rewrite <- (zlen_map Sg b) in E.
  assert (K : klen (zlen (map Sg a))) by (unfold klen; lia).
  assert (P : posS (euc_inorm F32 (Sg d) (zlen (map Sg a)))) by now apply (c_inorm_pos _ _ _ f32_cost).
  destruct (pairwise_spec F32 _ _ f32_cost (map Sg a) (map Sg b) (Sg d)) as (w & Ew & Hw); auto; try len.
  pose proof (sum_sq_pos F32 _ _ f32_cost (map Sg a) (map Sg b) Ha Hb) as PS.
  unfold pairwiseS. rewrite Ew. destruct Hw as [(-> & _)|(-> & Hlt)].
  - exists V. rewrite sum_sq_Sg, norm_Sg, zlen_map. split; [reflexivity|]. auto.
  - exists infS. split; [reflexivity|]. split; auto. intros ->. exfalso.
    change (Sg infS) with (ninf F32) in Hlt. rewrite (c_inorm_inf _ _ _ f32_cost) in Hlt by auto.
    apply (lt_not_le F32 _ _ Hlt). now apply (c_le_inf _ _ _ f32_cost).
Qed.

(** Floats up to 2^50 in series of up to 2^20 values never overflow. *)
Theorem C69_no_overflow : forall a b r,
  Forall fin32 a -> Forall fin32 b -> zlen a <= 2 ^ 20 -> zlen b <= 2 ^ 20 ->
  Forall (fun x => (Rabs (val x) <= 2 ^ 50)%R) a -> Forall (fun x => (Rabs (val x) <= 2 ^ 50)%R) b ->
  no_overflow B32 a b r.
Proof.
  intros a b r Fa Fb La Lb Va Vb.
  assert (X : forall l, Forall fin32 l -> Forall (fun x => (Rabs (val x) <= 2 ^ 50)%R) l -> Forall small32 l).
  { intros l F V. rewrite Forall_forall in *. intros x Hx. split; auto.
    replace (Flocq.Core.Raux.bpow Flocq.Core.Zaux.radix2 50) with (2 ^ 50)%R; auto.
    rewrite <- (Flocq.Core.Raux.IZR_Zpower Flocq.Core.Zaux.radix2 50) by lia.
    rewrite pow_IZR. reflexivity. }
  apply no_overflow_32; auto.
Qed.

(** Cases that meet the hypotheses. *)
Definition exS_a : list spec_float := map f32_ofZ [0; 1; 2; 5].
Definition exS_b : list spec_float := map f32_ofZ [1; 1; 4].
Example C69_case : floats_ok 2 Numeric.half64 exS_a exS_b 2 /\ no_overflow B32 exS_a exS_b 2 /\
  warpedS Numeric.half64 exS_a exS_b infS = Ok (Sg (ndiv B32 (nsqrt B32 (f32_ofZ 3)) (f32_ofZ 8))).
Proof.
  split; [|split].
  - split; [now apply fin32_Zs|]. split; [now apply fin32_Zs|].
    split; [vm_compute; split; discriminate|]. split; [vm_compute; split; discriminate|]. split; [reflexivity|lia].
  - apply no_overflow_32; try (now apply small32_Zs); vm_compute; discriminate.
  - vm_compute. reflexivity.
Qed.

(** The two builds differ: the same whole numbers, far below the limits of double, are at distance 0
    in the single-precision build although they differ, because a square overflows. *)
Theorem C69_overflow_witness : exists a b : list Z,
  Forall (fun z => Z.abs z <= 2 ^ 70) a /\ Forall (fun z => Z.abs z <= 2 ^ 70) b /\ zlen a = zlen b /\
  Forall fin32 (map f32_ofZ a) /\ Forall fin32 (map f32_ofZ b) /\
  warpedS (f64_ofZ 0) (map f32_ofZ a) (map f32_ofZ b) infS = Ok (Sg (f32_ofZ 0)) /\
  exists w, warpedDistance F64 (f64_ofZ 0) (map f64_ofZ a) (map f64_ofZ b) (ninf F64) = Ok w /\
    nltb F64 (f64_ofZ (2 ^ 60)) w = true /\ nltb F64 w (ninf F64) = true.
Proof.
  exists [2 ^ 70; 0], [0; 0].
  split; [repeat constructor; vm_compute; discriminate|]. split; [repeat constructor; vm_compute; discriminate|].
  split; [reflexivity|]. split; [repeat constructor|]. split; [repeat constructor|].
  split; [vm_compute; reflexivity|]. eexists. split; [vm_compute; reflexivity|]. split; vm_compute; reflexivity.
Qed.
