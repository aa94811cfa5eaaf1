(** * binary32 arithmetic related to real numbers (proofs, through Flocq): F64Base.v for binary32.

    Not a model of a file of /repo. *)
From Coq Require Import ZArith Bool Reals Lra Lia SpecFloat.
From Flocq Require Import Core BinarySingleNaN.
From Verif Require Import Outcome Num Single.
Open Scope R_scope.

Global Instance Hprec32 : FLX.Prec_gt_0 prec32 := eq_refl _.
Global Instance Hmax32 : Prec_lt_emax prec32 emax32 := eq_refl _.

Notation fexp32 := (SpecFloat.fexp prec32 emax32).
Global Instance vexp32 : Valid_exp fexp32 := fexp_correct prec32 emax32 Hprec32.
Global Instance mexp32 : Monotone_exp fexp32 := fexp_monotone prec32 emax32.
Definition rnd (r : R) : R := round radix2 fexp32 ZnearestE r.
Definition BIG : R := bpow radix2 128.
Arguments BIG : simpl never.
Definition clip (r : R) : R := Rmax (- BIG) (Rmin r BIG).

Definition val (x : spec_float) : R :=
  match x with
  | S754_zero _ => 0
  | S754_infinity s => if s then - BIG else BIG
  | S754_nan => 0
  | S754_finite s m e => F2R (Float radix2 (cond_Zopp s (Zpos m)) e)
  end.

(** Binary32 data that are not NaN; the finite ones; the non-negative ones (not -0). *)
Definition ok32 (x : spec_float) : Prop := is_f32 x = true /\ x <> S754_nan.
Definition fin32 (x : spec_float) : Prop :=
  is_f32 x = true /\ match x with S754_zero _ | S754_finite _ _ _ => True | _ => False end.
Definition pos32 (x : spec_float) : Prop :=
  is_f32 x = true /\
  match x with S754_zero s | S754_finite s _ _ | S754_infinity s => s = false | S754_nan => False end.

Lemma fin_ok x : fin32 x -> ok32 x.
Proof. intros (H & K); split; auto. intros ->; exact K. Qed.
Lemma pos_ok x : pos32 x -> ok32 x.
Proof. intros (H & K); split; auto. intros ->; exact K. Qed.

(** ** Rounding. *)
Lemma BIG_gt0 : 0 < BIG. Proof. apply bpow_gt_0. Qed.
Lemma rnd_le a b : a <= b -> rnd a <= rnd b.
Proof. intros H. apply round_le; auto with typeclass_instances. Qed.
Lemma rnd_0 : rnd 0 = 0.
Proof. apply round_0; auto with typeclass_instances. Qed.
Lemma rnd_opp a : rnd (- a) = - rnd a.
Proof. apply round_NE_opp. Qed.
Lemma rnd_pos a : 0 <= a -> 0 <= rnd a.
Proof. intros H. rewrite <- rnd_0. now apply rnd_le. Qed.
Lemma format_val x : fin32 x -> generic_format radix2 fexp32 (val x).
Proof.
  intros (H & K). destruct x; try contradiction; cbn [val].
  - apply generic_format_0.
  - exact (generic_format_B2R prec32 emax32 (SF2B (S754_finite s m e) H)).
Qed.
Lemma rnd_id r : generic_format radix2 fexp32 r -> rnd r = r.
Proof. intros H. apply round_generic; auto with typeclass_instances. Qed.
Lemma rnd_val x : fin32 x -> rnd (val x) = val x.
Proof. intros H. apply rnd_id, format_val, H. Qed.
Lemma format_bpow e : (-149 <= e)%Z -> generic_format radix2 fexp32 (bpow radix2 e).
Proof.
  intros H. apply generic_format_bpow. unfold SpecFloat.fexp, SpecFloat.emin, prec32, emax32. lia.
Qed.
Lemma rnd_BIG : rnd BIG = BIG.
Proof. apply rnd_id, format_bpow. lia. Qed.

Lemma clip_le a b : a <= b -> clip a <= clip b.
Proof.
  intros H. unfold clip. apply Rle_max_compat_l. apply Rle_min_compat_r. exact H.
Qed.
Lemma clip_id a : - BIG <= a <= BIG -> clip a = a.
Proof. intros (H1 & H2). unfold clip. rewrite Rmin_left, Rmax_right; auto. Qed.
Lemma clip_opp a : clip (- a) = - clip a.
Proof.
  pose proof BIG_gt0. unfold clip, Rmin.
  repeat match goal with |- context [Rle_dec ?a ?b] => destruct (Rle_dec a b) end; unfold Rmax;
  repeat match goal with |- context [Rle_dec ?a ?b] => destruct (Rle_dec a b) end; lra.
Qed.
Lemma clip_pos a : 0 <= a -> 0 <= clip a.
Proof.
  intros H. pose proof BIG_gt0. rewrite <- (clip_id 0) by lra. now apply clip_le.
Qed.
Lemma clip_bound a : - BIG <= clip a <= BIG.
Proof.
  pose proof BIG_gt0. unfold clip, Rmin.
  repeat match goal with |- context [Rle_dec ?a ?b] => destruct (Rle_dec a b) end; unfold Rmax;
  repeat match goal with |- context [Rle_dec ?a ?b] => destruct (Rle_dec a b) end; lra.
Qed.

(** ** Values. *)
Lemma val_bound x : ok32 x -> - BIG <= val x <= BIG.
Proof.
  intros (H & K). pose proof BIG_gt0. destruct x; cbn [val].
  - lra.
  - destruct s; lra.
  - lra.
  - pose proof (abs_B2R_lt_emax prec32 emax32 (SF2B (S754_finite s m e) H)) as L.
    cbn [B2R SF2B] in L. change (bpow radix2 emax32) with BIG in L. apply Rabs_lt_inv in L. lra.
Qed.
Lemma val_fin_bound x : fin32 x -> - BIG < val x < BIG.
Proof.
  intros (H & K). pose proof BIG_gt0. destruct x; try contradiction; cbn [val].
  - lra.
  - pose proof (abs_B2R_lt_emax prec32 emax32 (SF2B (S754_finite s m e) H)) as L.
    cbn [B2R SF2B] in L. change (bpow radix2 emax32) with BIG in L. apply Rabs_lt_inv in L. lra.
Qed.

Lemma fin_val_bound x : ok32 x -> - BIG < val x < BIG -> fin32 x.
Proof.
  intros (H & K) L. split; auto. destruct x as [| [|] | |]; cbn in *; auto; try lra; congruence.
Qed.

(** A finite binary32 as a Flocq number. *)
Lemma to_B x : is_f32 x = true -> exists b : binary_float prec32 emax32,
  B2SF b = x /\ (fin32 x -> is_finite b = true) /\ (fin32 x -> B2R b = val x) /\
  Bsign b = sign_SF x /\ is_nan b = is_nan_SF x.
Proof.
  intros H. exists (SF2B x H). split; [apply B2SF_SF2B|]. split; [|split; [|split]].
  - intros (_ & K). rewrite is_finite_SF2B. destruct x; cbn; tauto.
  - intros (_ & K). rewrite B2R_SF2B. destruct x; cbn; tauto.
  - now rewrite Bsign_SF2B.
  - now rewrite is_nan_SF2B.
Qed.

Lemma ltb_val x y : ok32 x -> ok32 y -> SFltb x y = Rlt_bool (val x) (val y).
Proof.
  intros Hx Hy.
  assert (fin32 x \/ x = S754_infinity true \/ x = S754_infinity false) as Cx.
  { destruct Hx as (V & K). destruct x as [| [|] | |]; auto; try (left; split; cbn; auto; fail);
    congruence. }
  assert (fin32 y \/ y = S754_infinity true \/ y = S754_infinity false) as Cy.
  { destruct Hy as (V & K). destruct y as [| [|] | |]; auto; try (left; split; cbn; auto; fail);
    congruence. }
  pose proof BIG_gt0.
  destruct Cx as [Fx|[->| ->]]; destruct Cy as [Fy|[->| ->]].
  - destruct (to_B x (proj1 Hx)) as (bx & <- & F1 & R1 & _).
    destruct (to_B y (proj1 Hy)) as (by_ & <- & F2 & R2 & _).
    rewrite <- R1, <- R2 by auto. apply (Bltb_correct prec32 emax32); auto.
  - pose proof (val_fin_bound _ Fx). cbn [val]. rewrite Rlt_bool_false by lra.
    destruct x as [| [|] | | [|]]; reflexivity.
  - pose proof (val_fin_bound _ Fx). cbn [val]. rewrite Rlt_bool_true by lra.
    destruct Fx as (_ & K). destruct x as [| [|] | | [|]]; try reflexivity; contradiction.
  - pose proof (val_fin_bound _ Fy). cbn [val]. rewrite Rlt_bool_true by lra.
    destruct Fy as (_ & K). destruct y as [| [|] | | [|]]; try reflexivity; contradiction.
  - cbn [val]. rewrite Rlt_bool_false by lra. reflexivity.
  - cbn [val]. rewrite Rlt_bool_true by lra. reflexivity.
  - pose proof (val_fin_bound _ Fy). cbn [val]. rewrite Rlt_bool_false by lra.
    destruct y as [| [|] | | [|]]; reflexivity.
  - cbn [val]. rewrite Rlt_bool_false by lra. reflexivity.
  - cbn [val]. rewrite Rlt_bool_false by lra. reflexivity.
Qed.

Lemma cmp_swap x y : SFcompare y x = match SFcompare x y with
                                     | Some c => Some (CompOpp c) | None => None end.
Proof.
  destruct x as [ ? | [] | | [] mx ex ]; destruct y as [ ? | [] | | [] my ey ]; simpl; try easy.
  - rewrite <- (Zcompare_antisym ex ey). destruct (ex ?= ey)%Z; try easy.
    now rewrite (Pcompare_antisym mx my).
  - rewrite <- (Zcompare_antisym ex ey). destruct (ex ?= ey)%Z; try easy.
    now rewrite Pcompare_antisym.
Qed.

Lemma cmp_total x y : ok32 x -> ok32 y -> SFcompare x y <> None.
Proof.
  intros (_ & Hx) (_ & Hy).
  destruct x as [ ? | [] | | [] mx ex ]; destruct y as [ ? | [] | | [] my ey ]; simpl; congruence.
Qed.

Lemma leb_ltb x y : ok32 x -> ok32 y -> SFleb x y = negb (SFltb y x).
Proof.
  intros Hx Hy. pose proof (cmp_total x y Hx Hy) as C.
  unfold SFleb, SFltb. rewrite (cmp_swap x y).
  destruct (SFcompare x y) as [[]|]; cbn; congruence.
Qed.
Lemma eqb_ltb x y : ok32 x -> ok32 y -> SFeqb x y = negb (SFltb y x) && negb (SFltb x y).
Proof.
  intros Hx Hy. pose proof (cmp_total x y Hx Hy) as C.
  unfold SFeqb, SFltb. rewrite (cmp_swap x y).
  destruct (SFcompare x y) as [[]|]; cbn; congruence.
Qed.

Lemma ltb_true x y : ok32 x -> ok32 y -> (SFltb x y = true <-> val x < val y).
Proof.
  intros Hx Hy. rewrite ltb_val by auto. case Rlt_bool_spec; intros; split; intros; auto; lra || discriminate.
Qed.
Lemma ltb_false x y : ok32 x -> ok32 y -> (SFltb x y = false <-> val y <= val x).
Proof.
  intros Hx Hy. rewrite ltb_val by auto. case Rlt_bool_spec; intros; split; intros; auto; lra || discriminate.
Qed.
Lemma leb_true x y : ok32 x -> ok32 y -> (SFleb x y = true <-> val x <= val y).
Proof.
  intros Hx Hy. rewrite leb_ltb by auto. rewrite negb_true_iff. now apply ltb_false.
Qed.
Lemma eqb_true x y : ok32 x -> ok32 y -> (SFeqb x y = true <-> val x = val y).
Proof.
  intros Hx Hy. rewrite eqb_ltb by auto. rewrite andb_true_iff, !negb_true_iff, !ltb_false by auto.
  lra.
Qed.

Lemma val_inj x y : pos32 x -> pos32 y -> val x = val y -> x = y.
Proof.
  intros Hx Hy E. pose proof BIG_gt0.
  assert (Cx : fin32 x \/ x = S754_infinity false).
  { destruct Hx as (V & K). destruct x as [| [|] | |]; auto; try (left; split; cbn; auto; fail);
    congruence || contradiction. }
  assert (Cy : fin32 y \/ y = S754_infinity false).
  { destruct Hy as (V & K). destruct y as [| [|] | |]; auto; try (left; split; cbn; auto; fail);
    congruence || contradiction. }
  destruct Cx as [Fx| ->]; destruct Cy as [Fy| ->].
  - destruct (to_B x (proj1 Hx)) as (bx & <- & F1 & R1 & S1 & _).
    destruct (to_B y (proj1 Hy)) as (by_ & <- & F2 & R2 & S2 & _).
    f_equal. apply B2R_Bsign_inj; auto.
    + rewrite R1, R2; auto.
    + rewrite S1, S2. destruct Hx as (_ & Kx), Hy as (_ & Ky).
      destruct bx, by_; cbn in *; congruence || contradiction.
  - pose proof (val_fin_bound _ Fx). cbn [val] in E. lra.
  - pose proof (val_fin_bound _ Fy). cbn [val] in E. lra.
  - reflexivity.
Qed.

(** ** Operations. *)
Lemma round_nearest_even_equiv s m l :
  round_nearest_even m l = choice_mode mode_NE s m l.
Proof.
  case l; [reflexivity|intro c]. case c; [ | reflexivity..].
  now simpl; unfold Round.cond_incr; case Z.even.
Qed.
Lemma binary_round_aux_equiv sx mx ex lx :
  SpecFloat.binary_round_aux prec32 emax32 sx mx ex lx
  = BinarySingleNaN.binary_round_aux prec32 emax32 mode_NE sx mx ex lx.
Proof.
  unfold SpecFloat.binary_round_aux, BinarySingleNaN.binary_round_aux.
  set (mrse' := shr_fexp _ _ _ _ _). case mrse'; intros mrs' e'; simpl.
  now rewrite (round_nearest_even_equiv sx).
Qed.
Lemma binary_round_equiv s m e :
  SpecFloat.binary_round prec32 emax32 s m e =
  BinarySingleNaN.binary_round prec32 emax32 mode_NE s m e.
Proof.
  unfold SpecFloat.binary_round, BinarySingleNaN.binary_round, shl_align_fexp.
  set (mez := shl_align _ _ _); case mez as [mz ez]. apply binary_round_aux_equiv.
Qed.
Lemma binary_normalize_equiv m e szero :
  SpecFloat.binary_normalize prec32 emax32 m e szero
  = B2SF (BinarySingleNaN.binary_normalize prec32 emax32 _ _ mode_NE m e szero).
Proof.
  case m as [ | p | p]; [now simpl|..]; simpl; rewrite B2SF_SF2B; apply binary_round_equiv.
Qed.

Notation bin32 := (binary_float prec32 emax32).
Lemma SFmul_B (x y : bin32) : SFmul prec32 emax32 (B2SF x) (B2SF y) = B2SF (Bmult mode_NE x y).
Proof.
  case x as [sx|sx| |sx mx ex Bx]; case y as [sy|sy| |sy my ey By]; [now trivial.. | ].
  simpl. rewrite B2SF_SF2B. apply binary_round_aux_equiv.
Qed.
Lemma SFadd_B (x y : bin32) : SFadd prec32 emax32 (B2SF x) (B2SF y) = B2SF (Bplus mode_NE x y).
Proof.
  case x as [sx|sx| |sx mx ex Bx]; case y as [sy|sy| |sy my ey By];
  [now (trivial || simpl; case Bool.eqb).. | ]. apply binary_normalize_equiv.
Qed.
Lemma SFsub_B (x y : bin32) : SFsub prec32 emax32 (B2SF x) (B2SF y) = B2SF (Bminus mode_NE x y).
Proof.
  case x as [sx|sx| |sx mx ex Bx]; case y as [sy|sy| |sy my ey By];
  [now (trivial || simpl; case Bool.eqb).. | ].
  simpl. unfold Zminus. rewrite <- cond_Zopp_negb. apply binary_normalize_equiv.
Qed.
Lemma SFdiv_B (x y : bin32) : SFdiv prec32 emax32 (B2SF x) (B2SF y) = B2SF (Bdiv mode_NE x y).
Proof.
  case x as [sx|sx| |sx mx ex Bx]; case y as [sy|sy| |sy my ey By];
  [now (trivial || simpl; case Bool.eqb).. | ].
  simpl. rewrite B2SF_SF2B. set (melz := SFdiv_core_binary _ _ _ _ _ _).
  case melz as [[mz ez] lz]. apply binary_round_aux_equiv.
Qed.
Lemma SFsqrt_B (x : bin32) : SFsqrt prec32 emax32 (B2SF x) = B2SF (Bsqrt mode_NE x).
Proof.
  case x as [sx|sx| |sx mx ex Bx]; [now (trivial || case sx).. | ]. case sx; [reflexivity | ].
  simpl. rewrite B2SF_SF2B. set (melz := SFsqrt_core_binary _ _ _ _).
  case melz as [[mz ez] lz]. apply binary_round_aux_equiv.
Qed.

(** [z] is the correctly rounded (clipped) [r]. *)
Definition is_rnd (z : spec_float) (r : R) : Prop := ok32 z /\ val z = clip (rnd r).

Lemma B_is_rnd (z : bin32) r s :
  (if Rlt_bool (Rabs (rnd r)) BIG
   then B2R z = rnd r /\ is_finite z = true
   else B2SF z = S754_infinity s /\ s = Rlt_bool (rnd r) 0) -> is_rnd (B2SF z) r.
Proof.
  pose proof BIG_gt0. case Rlt_bool_spec; intros L.
  - intros (E & F). split.
    + split; [apply valid_binary_B2SF|]. destruct z; cbn in *; congruence.
    + rewrite clip_id by (apply Rabs_def2 in L; lra). rewrite <- E.
      destruct z; cbn in *; congruence || reflexivity.
  - intros (E & ->). rewrite E. split.
    + split; [reflexivity|congruence].
    + cbn [val]. case Rlt_bool_spec; intros K.
      * rewrite Rabs_left in L by lra. unfold clip. rewrite Rmin_left by lra. now rewrite Rmax_left by lra.
      * rewrite Rabs_pos_eq in L by lra. unfold clip. rewrite Rmin_right by lra. now rewrite Rmax_right by lra.
Qed.

Lemma sign_val_neg x : fin32 x -> sign_SF x = true -> val x <= 0.
Proof.
  intros (H & K). destruct x as [| | |[|]]; try contradiction; cbn; intros; try lra; try discriminate.
  apply Rlt_le. now apply F2R_lt_0.
Qed.
Lemma sign_val_pos x : fin32 x -> sign_SF x = false -> 0 <= val x.
Proof.
  intros (H & K). destruct x as [| | |[|]]; try contradiction; cbn; intros; try lra; try discriminate.
  apply Rlt_le. now apply F2R_gt_0.
Qed.

Lemma rnd_neg a : a <= 0 -> rnd a <= 0.
Proof. intros. rewrite <- rnd_0. now apply rnd_le. Qed.

Lemma add_rnd x y : fin32 x -> fin32 y -> is_rnd (SFadd prec32 emax32 x y) (val x + val y).
Proof.
  intros Hx Hy.
  destruct (to_B x (proj1 Hx)) as (bx & Ex & F1 & R1 & S1 & _).
  destruct (to_B y (proj1 Hy)) as (b_y & Ey & F2 & R2 & S2 & _).
  rewrite <- Ex, <- Ey, SFadd_B. rewrite Ex, Ey.
  apply (B_is_rnd _ _ (Bsign bx)).
  pose proof (Bplus_correct prec32 emax32 _ _ mode_NE bx b_y (F1 Hx) (F2 Hy)) as C.
  rewrite R1, R2 in C by auto. fold BIG in C. change (round radix2 _ (round_mode mode_NE) ?r) with (rnd r) in C.
  change (bpow radix2 emax32) with BIG in C.
  destruct (Rlt_bool_spec (Rabs (rnd (val x + val y))) BIG) as [L|L].
  - tauto.
  - destruct C as (C & D). split; [exact C|]. symmetry. pose proof BIG_gt0.
    destruct (Bsign bx) eqn:E.
    + assert (val x <= 0) by (apply sign_val_neg; congruence).
      assert (val y <= 0) by (apply sign_val_neg; congruence).
      apply Rlt_bool_true. rewrite Rabs_left1 in L by (apply rnd_neg; lra). lra.
    + assert (0 <= val x) by (apply sign_val_pos; congruence).
      assert (0 <= val y) by (apply sign_val_pos; congruence).
      apply Rlt_bool_false. apply rnd_pos; lra.
Qed.

Lemma sub_rnd x y : fin32 x -> fin32 y -> is_rnd (SFsub prec32 emax32 x y) (val x - val y).
Proof.
  intros Hx Hy.
  destruct (to_B x (proj1 Hx)) as (bx & Ex & F1 & R1 & S1 & _).
  destruct (to_B y (proj1 Hy)) as (b_y & Ey & F2 & R2 & S2 & _).
  rewrite <- Ex, <- Ey, SFsub_B. rewrite Ex, Ey.
  apply (B_is_rnd _ _ (Bsign bx)).
  pose proof (Bminus_correct prec32 emax32 _ _ mode_NE bx b_y (F1 Hx) (F2 Hy)) as C.
  rewrite R1, R2 in C by auto. change (round radix2 _ (round_mode mode_NE) ?r) with (rnd r) in C.
  change (bpow radix2 emax32) with BIG in C.
  destruct (Rlt_bool_spec (Rabs (rnd (val x - val y))) BIG) as [L|L].
  - tauto.
  - destruct C as (C & D). split; [exact C|]. symmetry. pose proof BIG_gt0.
    destruct (Bsign bx) eqn:E.
    + assert (val x <= 0) by (apply sign_val_neg; congruence).
      assert (0 <= val y) by (apply sign_val_pos; [assumption|]; rewrite <- S2; destruct (Bsign b_y); cbn in *; congruence).
      apply Rlt_bool_true. rewrite Rabs_left1 in L by (apply rnd_neg; lra). lra.
    + assert (0 <= val x) by (apply sign_val_pos; congruence).
      assert (val y <= 0) by (apply sign_val_neg; [assumption|]; rewrite <- S2; destruct (Bsign b_y); cbn in *; congruence).
      apply Rlt_bool_false. apply rnd_pos; lra.
Qed.

Lemma mul_sign_rnd x y : fin32 x -> fin32 y ->
  (xorb (sign_SF x) (sign_SF y) = true -> val x * val y <= 0) /\
  (xorb (sign_SF x) (sign_SF y) = false -> 0 <= val x * val y).
Proof.
  intros Hx Hy. destruct (sign_SF x) eqn:Sx; destruct (sign_SF y) eqn:Sy; cbn; split; intros; try discriminate.
  - apply sign_val_neg in Sx; auto. apply sign_val_neg in Sy; auto. nra.
  - apply sign_val_neg in Sx; auto. apply sign_val_pos in Sy; auto. nra.
  - apply sign_val_pos in Sx; auto. apply sign_val_neg in Sy; auto. nra.
  - apply sign_val_pos in Sx; auto. apply sign_val_pos in Sy; auto. nra.
Qed.

Lemma mul_rnd x y : fin32 x -> fin32 y -> is_rnd (SFmul prec32 emax32 x y) (val x * val y).
Proof.
  intros Hx Hy.
  destruct (to_B x (proj1 Hx)) as (bx & Ex & F1 & R1 & S1 & _).
  destruct (to_B y (proj1 Hy)) as (b_y & Ey & F2 & R2 & S2 & _).
  rewrite <- Ex, <- Ey, SFmul_B. rewrite Ex, Ey.
  apply (B_is_rnd _ _ (xorb (Bsign bx) (Bsign b_y))).
  pose proof (Bmult_correct prec32 emax32 _ _ mode_NE bx b_y) as C.
  rewrite R1, R2 in C by auto. change (round radix2 _ (round_mode mode_NE) ?r) with (rnd r) in C.
  change (bpow radix2 emax32) with BIG in C.
  rewrite (F1 Hx), (F2 Hy) in C.
  destruct (Rlt_bool_spec (Rabs (rnd (val x * val y))) BIG) as [L|L].
  - tauto.
  - split; [exact C|]. symmetry. pose proof BIG_gt0. rewrite S1, S2.
    destruct (mul_sign_rnd x y Hx Hy) as (P & Q).
    destruct (xorb (sign_SF x) (sign_SF y)).
    + specialize (P eq_refl). apply Rlt_bool_true. rewrite Rabs_left1 in L by (apply rnd_neg; lra). lra.
    + specialize (Q eq_refl). apply Rlt_bool_false. apply rnd_pos; lra.
Qed.

Lemma div_rnd x y : fin32 x -> fin32 y -> val y <> 0 ->
  is_rnd (SFdiv prec32 emax32 x y) (val x / val y).
Proof.
  intros Hx Hy Hnz.
  destruct (to_B x (proj1 Hx)) as (bx & Ex & F1 & R1 & S1 & _).
  destruct (to_B y (proj1 Hy)) as (b_y & Ey & F2 & R2 & S2 & _).
  rewrite <- Ex, <- Ey, SFdiv_B. rewrite Ex, Ey.
  apply (B_is_rnd _ _ (xorb (Bsign bx) (Bsign b_y))).
  pose proof (Bdiv_correct prec32 emax32 _ _ mode_NE bx b_y) as C.
  rewrite R1, R2 in C by auto. change (round radix2 _ (round_mode mode_NE) ?r) with (rnd r) in C.
  change (bpow radix2 emax32) with BIG in C.
  rewrite (F1 Hx) in C. specialize (C Hnz).
  destruct (Rlt_bool_spec (Rabs (rnd (val x / val y))) BIG) as [L|L].
  - tauto.
  - split; [exact C|]. symmetry. pose proof BIG_gt0. rewrite S1, S2.
    assert (I : val x / val y = val x * val y * ((/ val y) * (/ val y))) by (field; auto).
    assert (0 < (/ val y) * (/ val y)) by (pose proof (Rinv_neq_0_compat _ Hnz); nra).
    destruct (mul_sign_rnd x y Hx Hy) as (P & Q).
    destruct (xorb (sign_SF x) (sign_SF y)).
    + specialize (P eq_refl). apply Rlt_bool_true. rewrite Rabs_left1 in L by (apply rnd_neg; rewrite I; nra). lra.
    + specialize (Q eq_refl). apply Rlt_bool_false. apply rnd_pos. rewrite I; nra.
Qed.

Lemma sqrt_rnd x : fin32 x -> pos32 x -> fin32 (SFsqrt prec32 emax32 x) /\
  pos32 (SFsqrt prec32 emax32 x) /\ val (SFsqrt prec32 emax32 x) = rnd (sqrt (val x)).
Proof.
  intros Hx Px.
  destruct (to_B x (proj1 Hx)) as (bx & Ex & F1 & R1 & S1 & _).
  rewrite <- Ex, SFsqrt_B. rewrite Ex.
  pose proof (Bsqrt_correct prec32 emax32 _ _ mode_NE bx) as (C1 & C2 & C3).
  rewrite R1 in C1 by auto. change (round radix2 _ (round_mode mode_NE) ?r) with (rnd r) in C1.
  destruct Px as (_ & Px). rewrite <- Ex in Px.
  assert (F : is_finite (Bsqrt mode_NE bx) = true).
  { rewrite C2. specialize (F1 Hx). destruct bx; cbn in *; try congruence. now rewrite Px. }
  assert (S : Bsign (Bsqrt mode_NE bx) = false).
  { rewrite C3. rewrite S1, <- Ex. destruct bx; cbn in *; congruence || contradiction.
    destruct (Bsqrt mode_NE bx); cbn in *; congruence. }
  destruct (Bsqrt mode_NE bx) eqn:E; cbn in F, S, C1; try discriminate;
  repeat split; cbn; auto.
Qed.

(** Integers. *)
Lemma ofZ_rnd z : is_rnd (f32_ofZ z) (IZR z).
Proof.
  unfold f32_ofZ. rewrite binary_normalize_equiv.
  apply (B_is_rnd _ _ (Rlt_bool (IZR z) 0)).
  pose proof (binary_normalize_correct prec32 emax32 _ _ mode_NE z 0 false) as C. cbv zeta in C.
  assert (E : F2R (Float radix2 z 0) = IZR z) by (unfold F2R; cbn; ring).
  rewrite E in C. change (round radix2 _ (round_mode mode_NE) ?r) with (rnd r) in C.
  change (bpow radix2 emax32) with BIG in C.
  destruct (Rlt_bool_spec (Rabs (rnd (IZR z))) BIG) as [L|L].
  - tauto.
  - split; [exact C|]. pose proof BIG_gt0. case Rlt_bool_spec; intros K; symmetry.
    + apply Rlt_bool_true. rewrite Rabs_left1 in L by (apply rnd_neg; lra). lra.
    + apply Rlt_bool_false. apply rnd_pos; lra.
Qed.
