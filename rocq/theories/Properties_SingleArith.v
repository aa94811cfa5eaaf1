(** * Property C69: what the operations on floats compute.

    [F32] is used by the theorems on the single-precision build; this file says, without the names of
    the model, which numbers its operations give: the IEEE 754 binary32 result, rounded to nearest, ties
    to even.  The real value [real32] of a float, the rounding [nearest32] and the range are written
    with Flocq's definitions and literal constants. *)
From Coq Require Import ZArith Bool Reals Lra Lia SpecFloat.
From Flocq Require Import Core.
From Verif Require Import Outcome Num Single F32Base F32Laws.
From Verif Require F64Base.
Open Scope R_scope.

Definition real32 (x : spec_float) : R :=
  match x with S754_finite s m e => (if s then - 1 else 1) * IZR (Zpos m) * bpow radix2 e | _ => 0 end.
(** Nearest number of 24 bits with exponent at least -149, ties to even. *)
Definition nearest32 (r : R) : R := round radix2 (FLT_exp (- 149) 24) ZnearestE r.
Definition finite32 (x : spec_float) : Prop :=
  match x with
  | S754_zero _ => True
  | S754_finite _ m e => generic_format radix2 (FLT_exp (- 149) 24) (real32 x) /\ Rabs (real32 x) < bpow radix2 128 /\
                         SpecFloat.bounded 24 128 m e = true
  | _ => False
  end.
(** [v] is the float nearest to [r], or the infinity of its sign if [r] rounds to 2^128 or more. *)
Definition ieee32 (v : mixed) (r : R) : Prop :=
  exists z, v = Sg z /\
    ((Rabs (nearest32 r) < bpow radix2 128 /\ finite32 z /\ real32 z = nearest32 r) \/
     (bpow radix2 128 <= nearest32 r /\ z = S754_infinity false) \/
     (nearest32 r <= - bpow radix2 128 /\ z = S754_infinity true)).

Lemma nearest_rnd r : nearest32 r = rnd r.
Proof. reflexivity. Qed.
Lemma real_val x : fin32 x -> real32 x = val x.
Proof.
  intros (_ & H). destruct x as [| | |s m e]; try contradiction; cbn [real32 val]; auto.
  unfold F2R. cbn [Fnum Fexp]. destruct s; cbn [cond_Zopp]; [|lra]. rewrite opp_IZR. lra.
Qed.
Lemma finite_fin x : finite32 x <-> fin32 x.
Proof.
  split.
  - destruct x; cbn; try contradiction; split; auto. now destruct H as (_ & _ & H).
  - intros H. pose proof (format_val x H) as F. pose proof (val_fin_bound x H) as B. rewrite <- (real_val x H) in F, B.
    destruct x as [| | |s m e]; destruct H as (V & H); try contradiction; cbn [finite32]; auto.
    split; [exact F|]. split; [|exact V]. apply Rabs_def1; apply B.
Qed.
Lemma ieee_rnd z r : is_rnd z r -> ieee32 (Sg z) r.
Proof.
  intros (O & V). exists z. split; auto. rewrite nearest_rnd. pose proof BIG_gt0. fold BIG.
  destruct (Rlt_dec (Rabs (rnd r)) BIG) as [L|L].
  - left. apply Rabs_def2 in L as L'. rewrite clip_id in V by lra.
    assert (F : fin32 z) by (apply fin_val_bound; auto; rewrite V; lra).
    split; auto. rewrite finite_fin, real_val; auto.
  - right. assert (N : ~ fin32 z -> z = S754_infinity false \/ z = S754_infinity true).
    { intros N. destruct O as (O & O'). destruct z as [| [|] | |]; auto; [exfalso; apply N; split; auto; exact I | congruence |].
      exfalso. apply N. split; auto. }
    assert (NF : ~ fin32 z).
    { intros F. apply val_fin_bound in F. rewrite V in F. apply L, Rabs_def1; unfold clip, Rmax, Rmin in F;
      destruct (Rle_dec (rnd r) BIG) in F; destruct Rle_dec in F; lra. }
    destruct (N NF) as [-> | ->]; cbn [val] in V; unfold clip, Rmax, Rmin in V;
      destruct (Rle_dec (rnd r) BIG) in V; destruct Rle_dec in V; try lra; [left|left|right|right]; split; auto; lra.
Qed.

Theorem C69_arithmetic : forall x y, finite32 x -> finite32 y ->
  ieee32 (nadd F32 (Sg x) (Sg y)) (real32 x + real32 y) /\
  ieee32 (nsub F32 (Sg x) (Sg y)) (real32 x - real32 y) /\
  ieee32 (nmul F32 (Sg x) (Sg y)) (real32 x * real32 y) /\
  (real32 y <> 0 -> ieee32 (ndiv F32 (Sg x) (Sg y)) (real32 x / real32 y)) /\
  (0 < real32 x -> ieee32 (nsqrt F32 (Sg x)) (sqrt (real32 x))) /\
  (exists z, nabs F32 (Sg x) = Sg z /\ real32 z = Rabs (real32 x)) /\
  (nltb F32 (Sg x) (Sg y) = true <-> real32 x < real32 y) /\
  (nleb F32 (Sg x) (Sg y) = true <-> real32 x <= real32 y) /\
  (neqb F32 (Sg x) (Sg y) = true <-> real32 x = real32 y) /\
  nltb F32 (Sg x) (ninf F32) = true /\ nltb F32 (nninf F32) (Sg x) = true.
Proof.
  intros x y Fx Fy. apply finite_fin in Fx, Fy. rewrite (real_val x Fx), (real_val y Fy).
  split; [|split; [|split; [|split; [|split]]]].
  - apply (ieee_rnd (SFadd prec32 emax32 x y)). now apply add_rnd.
  - apply (ieee_rnd (SFsub prec32 emax32 x y)). now apply sub_rnd.
  - apply (ieee_rnd (SFmul prec32 emax32 x y)). now apply mul_rnd.
  - intros H. apply (ieee_rnd (SFdiv prec32 emax32 x y)). now apply div_rnd.
  - intros H. assert (P : pos32 x).
    { split; [apply Fx|]. destruct Fx as (_ & I). destruct x as [| | |s m e]; try contradiction; cbn [val] in H; [lra|].
      destruct s; auto. exfalso. apply gt_0_F2R in H. cbn in H. lia. }
    destruct (sqrt_rnd x Fx P) as (A & _ & B). apply (ieee_rnd (SFsqrt prec32 emax32 x)). split; [now apply fin_ok|].
    apply val_fin_bound in A. rewrite clip_id; auto. rewrite <- B. lra.
  - split; [|split; [|split; [|split; [|split]]]].
    + exists (SFabs x). split; auto. rewrite <- (real_val x Fx). destruct x as [| | |s m e]; cbn; try (now rewrite Rabs_R0).
      pose proof (bpow_gt_0 radix2 e). assert (0 < IZR (Zpos m)) by (apply IZR_lt; lia).
      assert (0 < IZR (Zpos m) * bpow radix2 e) by now apply Rmult_lt_0_compat.
      destruct s; [rewrite Rabs_left by lra | rewrite Rabs_pos_eq by lra]; lra.
    + apply ltb_true; now apply fin_ok.
    + apply leb_true; now apply fin_ok.
    + apply eqb_true; now apply fin_ok.
    + apply ltb_true; [now apply fin_ok|apply pos_ok, pos_inf32|]. apply val_fin_bound in Fx. change (val x < BIG). lra.
    + apply ltb_true; [split; [reflexivity|discriminate]|now apply fin_ok|]. apply val_fin_bound in Fx. change (- BIG < val x). lra.
Qed.

(** Ints beside a float are converted to float, ints beside a double to double. *)
Theorem C69_conversions : forall x k,
  ieee32 (Sg (f32_ofZ k)) (IZR k) /\
  nmul F32 (Sg x) (nofZ F32 k) = nmul F32 (Sg x) (Sg (f32_ofZ k)) /\
  ndiv F32 (Sg x) (nofZ F32 k) = ndiv F32 (Sg x) (Sg (f32_ofZ k)) /\
  (k <> 0%Z -> nmul F32 (Db x) (nofZ F32 k) = Db (nmul F64 x (f64_ofZ k))).
Proof.
  intros x k. split; [apply ieee_rnd, ofZ_rnd|]. split; [apply mul_ofZ|]. split; [apply div_ofZ|].
  intros H. cbn [nofZ F32]. destruct (Z.eqb_spec k 0); [lia|]. reflexivity.
Qed.

(** 1/3 in floats is 11184811 / 2^25. *)
Example C69_arith_case : finite32 (f32_ofZ 1) /\ finite32 (f32_ofZ 3) /\
  ndiv F32 (Sg (f32_ofZ 1)) (nofZ F32 3) = Sg (S754_finite false 11184811 (- 25)).
Proof. split; [|split; [|reflexivity]]; apply finite_fin; split; [reflexivity|exact I|reflexivity|exact I]. Qed.
