(** * A constant query of the UCR search: its deviation is 0, so every number of the normalised query is 0/0. *)
From Coq Require Import ZArith Bool Lia SpecFloat List Reals Lra.
From Flocq Require Import Core.
From Verif Require SearchProofs.
From Verif Require Import Outcome Num F64Base F64Laws Lemire Trillion Search SafeSearch NanSearch NanFree.
Import ListNotations.
Open Scope Z_scope.

(** Doubles that are whole numbers. *)
Definition whole (x : spec_float) (z : Z) : Prop := fin64 x /\ val x = IZR z.
Lemma rnd_whole x z : Z.abs z <= 2 ^ 53 -> is_rnd x (IZR z) -> whole x z.
Proof.
  intros H (O & V). rewrite rnd_id in V by now apply format_Z.
  assert (B : (- BIG < IZR z < BIG)%R).
  { assert (IZR (2 ^ 53) < BIG)%R. { change (IZR (2 ^ 53)) with (bpow radix2 53). apply bpow_lt. lia. }
    assert (IZR (Z.abs z) <= IZR (2 ^ 53))%R by now apply IZR_le.
    rewrite abs_IZR in *. apply Rabs_lt_inv. lra. }
  rewrite clip_id in V by lra. split; auto. apply fin_val_bound; auto. now rewrite V.
Qed.
Lemma whole_add x y a b : whole x a -> whole y b -> Z.abs (a + b) <= 2 ^ 53 -> whole (nadd F64 x y) (a + b).
Proof. intros (F1 & V1) (F2 & V2) H. apply rnd_whole; auto. rewrite plus_IZR, <- V1, <- V2. now apply add_rnd. Qed.
Lemma whole_sub x y a b : whole x a -> whole y b -> Z.abs (a - b) <= 2 ^ 53 -> whole (nsub F64 x y) (a - b).
Proof. intros (F1 & V1) (F2 & V2) H. apply rnd_whole; auto. rewrite minus_IZR, <- V1, <- V2. now apply sub_rnd. Qed.
Lemma whole_mul x y a b : whole x a -> whole y b -> Z.abs (a * b) <= 2 ^ 53 -> whole (nmul F64 x y) (a * b).
Proof. intros (F1 & V1) (F2 & V2) H. apply rnd_whole; auto. rewrite mult_IZR, <- V1, <- V2. now apply mul_rnd. Qed.
Lemma whole_div x y a b : whole x (b * a) -> whole y b -> b <> 0 -> Z.abs a <= 2 ^ 53 -> whole (ndiv F64 x y) a.
Proof.
  intros (F1 & V1) (F2 & V2) Hb H. assert (IZR b <> 0)%R by now apply not_0_IZR. apply rnd_whole; auto.
  replace (IZR a) with (val x / val y)%R; [apply div_rnd; auto; now rewrite V2|]. rewrite V1, V2, mult_IZR. now field.
Qed.
Lemma whole_0 x : whole x 0 -> exists s, x = S754_zero s.
Proof.
  intros ((_ & F) & V). destruct x as [s| | |s p e]; try contradiction; eauto. exfalso. cbn [val] in V. apply eq_0_F2R in V. now destruct s.
Qed.

Lemma read_query_const c z : whole c z -> forall n (xs : list spec_float) bad d q ex ex2 q' ex' ex2' d' k,
  0 <= k -> (n <= length xs)%nat -> Forall (eq c) (firstn n xs) -> (k + Z.of_nat n) * z ^ 2 <= 2 ^ 53 -> (k + Z.of_nat n) * Z.abs z <= 2 ^ 53 ->
  Forall (eq c) q -> whole ex (k * z) -> whole ex2 (k * z ^ 2) ->
  read_query F64 n (mkNFile F64 xs bad) d q ex ex2 = Ok (q', ex', ex2', d') -> Forall (eq c) q' /\ whole ex' ((k + Z.of_nat n) * z) /\ whole ex2' ((k + Z.of_nat n) * z ^ 2).
Proof.
  intros Hc. induction n as [|n IH]; intros xs bad d q ex ex2 q' ex' ex2' d' k Hk Hn F B1 B2 Fq H1 H2 E.
  - rewrite Z.add_0_r. cbn in E. destruct xs as [|x xs]; cbn in E; [destruct bad; cbn in E|]; injection E as <- <- <- _; auto.
  - destruct xs as [|x xs]; [cbn in Hn; lia|]. cbn in Hn. cbn [firstn] in F. inversion F as [|? ? Ex F']; subst x. cbn [read_query scan f_vals f_bad] in E.
    assert (S1 : Z.abs ((k + 1) * z) <= 2 ^ 53) by (rewrite Z.abs_mul; nia).
    assert (S2 : Z.abs ((k + 1) * z ^ 2) <= 2 ^ 53) by (rewrite Z.abs_mul, (Z.abs_eq (z ^ 2)) by nia; nia).
    assert (S3 : Z.abs (z * z) <= 2 ^ 53) by nia.
    apply (IH _ _ _ _ _ _ _ _ _ _ (k + 1)) in E; auto; try lia.
    + now replace (k + Z.of_nat (S n)) with (k + 1 + Z.of_nat n) by lia.
    + apply Forall_app. auto.
    + replace ((k + 1) * z) with (k * z + z) by lia. apply whole_add; auto. now replace (k * z + z) with ((k + 1) * z) by lia.
    + replace ((k + 1) * z ^ 2) with (k * z ^ 2 + z * z) by lia. apply whole_add; auto; [|now replace (k * z ^ 2 + z * z) with ((k + 1) * z ^ 2) by lia]. now apply whole_mul.
Qed.
Lemma prepare_const sort (qs : list (num F64)) bad (m r : Z) qy d c z : 1 <= m <= zlen qs -> m <= 2 ^ 53 -> whole c z -> m * z ^ 2 <= 2 ^ 53 -> Forall (eq c) (firstn (Z.to_nat m) qs) ->
  prepare F64 sort (mkNFile F64 qs bad) m r = Ok (qy, d) -> Forall (eq S754_nan) (qu_q F64 qy).
Proof.
  intros Hm Hb Hc Hz H E. unfold prepare in E. apply bind_Ok_inv in E as ((((q & ex) & ex2) & d1) & Eq & E). change (num F64) with spec_float in *.
  assert (Hz1 : Z.abs z <= z ^ 2) by nia. assert (Hz2 : z ^ 2 <= m * z ^ 2) by nia.
  assert (W0 : whole (nzero F64) 0) by (split; [split; [reflexivity|exact I]|reflexivity]).
  apply (read_query_const c z Hc _ _ _ _ _ _ _ _ _ _ _ 0) in Eq as (Fq & X1 & X2); auto; try lia; [|unfold zlen in Hm; lia|nia].
  rewrite Z2Nat.id in X1, X2 by lia. rewrite Z.add_0_l in X1, X2.
  assert (Wm : whole (nofZ F64 m) m) by (apply ofZ_exact; lia).
  assert (M : whole (mean_of F64 ex m) z) by (apply (whole_div _ _ z m); auto; lia).
  assert (V : whole (nsub F64 (ndiv F64 ex2 (nofZ F64 m)) (nmul F64 (mean_of F64 ex m) (mean_of F64 ex m))) 0).
  { replace 0 with (z ^ 2 - z * z) by lia. apply whole_sub; [apply (whole_div _ _ (z ^ 2) m); auto; lia|apply whole_mul; auto; lia|lia]. }
  apply whole_0 in V as (s & V). assert (St : std_of F64 ex ex2 m = S754_zero s) by (unfold std_of; rewrite V; reflexivity). rewrite St in E.
  destruct (zlen q <? m); [discriminate|].
  apply bind_Ok_inv in E as ((l & u) & _ & E). apply bind_Ok_inv in E as (l' & _ & E). apply bind_Ok_inv in E as (u' & _ & E).
  apply bind_Ok_inv in E as (qo & _ & E). apply bind_Ok_inv in E as (uo & _ & E). apply bind_Ok_inv in E as (lo & _ & E). injection E as <- _. cbn [qu_q].
  apply Forall_map. eapply Forall_impl; [|exact Fq]. intros x <-. unfold znorm.
  assert (D : whole (nsub F64 c (mean_of F64 ex m)) 0) by (replace 0 with (z - z) by lia; apply whole_sub; auto; lia).
  apply whole_0 in D as (s' & D). symmetry. transitivity (ndiv F64 (S754_zero s') (S754_zero s)); [exact (f_equal (fun v : spec_float => ndiv F64 v (S754_zero s)) D)|reflexivity].
Qed.

(** ** Constant windows: the running sums of whole numbers are exact. *)
Fixpoint ps (g : Z -> Z) (n : nat) : Z := match n with O => 0 | S n => ps g n + g (Z.of_nat n) end.
Definition sums (g : Z -> Z) (i : Z) : Z := ps g (Z.to_nat i).
Lemma sums_next g i : 0 <= i -> sums g (i + 1) = sums g i + g i.
Proof. intros H. unfold sums. replace (Z.to_nat (i + 1)) with (S (Z.to_nat i)) by lia. cbn [ps]. now rewrite Z2Nat.id. Qed.
Lemma sums_bound g K : (forall k, Z.abs (g k) <= K) -> forall n lo, 0 <= lo -> Z.abs (sums g (lo + Z.of_nat n) - sums g lo) <= Z.of_nat n * K.
Proof.
  intros H. induction n as [|n IH]; intros lo Hlo; [rewrite Z.add_0_r; lia|]. replace (lo + Z.of_nat (S n)) with (lo + Z.of_nat n + 1) by lia.
  rewrite sums_next by lia. specialize (IH lo Hlo). specialize (H (lo + Z.of_nat n)). lia.
Qed.
Lemma sums_const g c : forall n lo, 0 <= lo -> (forall k, lo <= k < lo + Z.of_nat n -> g k = c) -> sums g (lo + Z.of_nat n) - sums g lo = Z.of_nat n * c.
Proof.
  induction n as [|n IH]; intros lo Hlo H; [rewrite Z.add_0_r; lia|]. replace (lo + Z.of_nat (S n)) with (lo + Z.of_nat n + 1) by lia.
  rewrite sums_next by lia. rewrite (H (lo + Z.of_nat n)) by lia. specialize (IH lo Hlo ltac:(intros k Hk; apply H; lia)). lia.
Qed.
Lemma const_dec (g : Z -> Z) (c : Z) n lo : (forall k, lo <= k < lo + Z.of_nat n -> g k = c) \/ exists k, lo <= k < lo + Z.of_nat n /\ g k <> c.
Proof.
  induction n as [|n [IH|(k & Hk & IH)]]; [left; lia| |right; exists k; split; [lia|auto]].
  destruct (Z.eq_dec (g (lo + Z.of_nat n)) c); [left|right; exists (lo + Z.of_nat n); split; [lia|auto]].
  intros k Hk. destruct (Z.eq_dec k (lo + Z.of_nat n)) as [->|]; auto. apply IH. lia.
Qed.

Lemma kim_first_nan (t q : list spec_float) j m mean std bsf x v : zget t j = Ok x -> znorm F64 mean std x = S754_nan -> t_kim F64 t q j m mean std bsf = Ok v -> v = S754_nan.
Proof.
  unfold t_kim. cbv zeta. intros Ex Hx E. change (num F64) with spec_float in *. rewrite Ex in E. cbn [bind] in E. rewrite Hx in E.
  apply bind_Ok_inv in E as (y0 & _ & E). apply any_get in E as (q0 & E). apply any_get in E as (q1 & E). rewrite sqd_nan, add_nan_l, leb_nan in E.
  apply bind_Ok_inv in E as (y2 & _ & E). apply any_get in E as (q2 & E). rewrite add_nan_l, leb_nan in E.
  apply bind_Ok_inv in E as (y3 & _ & E). apply any_get in E as (q3 & E). rewrite add_nan_l, leb_nan in E.
  apply bind_Ok_inv in E as (y4 & _ & E). apply any_get in E as (q4 & E). rewrite add_nan_l, leb_nan in E.
  apply bind_Ok_inv in E as (y5 & _ & E). apply any_get in E as (q5 & E). rewrite add_nan_l in E. now injection E as <-.
Qed.
(** The normalised value of the constant of a window. *)
Lemma norm_const (ex ex2 x : spec_float) (m z : Z) : 1 <= m <= 2 ^ 53 -> m * z ^ 2 <= 2 ^ 53 -> whole ex (m * z) -> whole ex2 (m * z ^ 2) -> whole x z ->
  znorm F64 (mean_of F64 ex m) (std_of F64 ex ex2 m) x = S754_nan.
Proof.
  intros Hm Hz X1 X2 Hx. assert (Hz1 : Z.abs z <= z ^ 2) by nia. assert (Hz2 : z ^ 2 <= m * z ^ 2) by nia.
  assert (Wm : whole (nofZ F64 m) m) by (apply ofZ_exact; lia).
  assert (M : whole (mean_of F64 ex m) z) by (apply (whole_div _ _ z m); auto; lia).
  assert (V : whole (nsub F64 (ndiv F64 ex2 (nofZ F64 m)) (nmul F64 (mean_of F64 ex m) (mean_of F64 ex m))) 0).
  { replace 0 with (z ^ 2 - z * z) by lia. apply whole_sub; [apply (whole_div _ _ (z ^ 2) m); auto; lia|apply whole_mul; auto; lia|lia]. }
  apply whole_0 in V as (s & V). assert (St : std_of F64 ex ex2 m = S754_zero s) by (unfold std_of; rewrite V; reflexivity). unfold znorm.
  assert (D : whole (nsub F64 x (mean_of F64 ex m)) 0) by (replace 0 with (z - z) by lia; apply whole_sub; auto; lia).
  apply whole_0 in D as (s' & D). rewrite St. transitivity (ndiv F64 (S754_zero s') (S754_zero s)); [exact (f_equal (fun v : spec_float => ndiv F64 v (S754_zero s)) D)|reflexivity].
Qed.

Section Const.
Context (m K : Z) (Hm : 3 <= m <= 2 ^ 53) (HK : 1 <= K) (Hb : m * K ^ 2 <= 2 ^ 53).
Definition nthz (zs : list Z) (k : Z) : Z := nth (Z.to_nat k) zs 0.
(** The window of [m] numbers at [i] is not constant. *)
Definition varied (zs : list Z) (i : Z) : Prop := exists k, i <= k < i + m /\ nthz zs k <> nthz zs i.
Lemma nthz_bound zs : Forall (fun z => Z.abs z <= K) zs -> forall k, Z.abs (nthz zs k) <= K.
Proof. intros F k. unfold nthz. destruct (nth_in_or_default (Z.to_nat k) zs 0) as [H| ->]; [|lia]. rewrite Forall_forall in F. auto. Qed.
Lemma get_whole zs k x : zget (map f64_ofZ zs) k = Ok x -> x = f64_ofZ (nthz zs k) /\ 0 <= k < zlen zs.
Proof.
  intros E. assert (R : 0 <= k < zlen (map f64_ofZ zs)) by (now apply zget_inv in E). unfold zlen in *. rewrite map_length in R. split; [|lia]. unfold nthz.
  unfold zget in E. destruct (Z.ltb_spec k 0); [lia|]. rewrite nth_error_map in E. rewrite (nth_error_nth' zs 0) in E by lia. now injection E as <-.
Qed.

Definition cinv (zs : list Z) (base : Z) (b : best F64) (i : Z) (s : pstate F64) : Prop :=
  let '(ex, ex2, t, w, b1) := s in 0 <= i /\ let lo := Z.max 0 (i - (m - 1)) in
  whole ex (sums (nthz zs) i - sums (nthz zs) lo) /\ whole ex2 (sums (fun k => nthz zs k ^ 2) i - sums (fun k => nthz zs k ^ 2) lo) /\
  (forall k, Z.max 0 (i - m) <= k < i -> zget t (k mod m) = Ok (f64_ofZ (nthz zs k))) /\
  (b1 = b \/ (base <= b_loc F64 b1 /\ b_loc F64 b1 + m <= base + zlen zs /\ varied zs (b_loc F64 b1 - base))).
Lemma sums_le (g : Z -> Z) B : (forall k, Z.abs (g k) <= B) -> forall lo i, 0 <= lo <= i -> i - lo <= m -> 0 <= B -> m * B <= 2 ^ 53 -> Z.abs (sums g i - sums g lo) <= 2 ^ 53.
Proof. intros H lo i Hl Hi HB HM. pose proof (sums_bound g B H (Z.to_nat (i - lo)) lo ltac:(lia)) as X. rewrite Z2Nat.id in X by lia. replace (lo + (i - lo)) with i in X by lia. nia. Qed.

Lemma step_const qy (r base : Z) zs (l u : list (num F64)) b i s s' : Forall (fun z => Z.abs z <= K) zs ->
  cinv zs base b i s -> p_step F64 qy m r base (map f64_ofZ zs) l u i s = Ok s' -> cinv zs base b (i + 1) s'.
Proof.
  intros F. destruct s as ((((ex, ex2), t), w), b1), s' as ((((ex', ex2'), t'), w'), b1'). intros (Hi & X1 & X2 & Ht & Hbest) E.
  set (g := nthz zs) in *. set (h := fun k => g k ^ 2) in *. set (lo := Z.max 0 (i - (m - 1))) in *.
  assert (Bg : forall k, Z.abs (g k) <= K) by (apply nthz_bound; auto).
  assert (Bh : forall k, Z.abs (h k) <= K ^ 2) by (intros k; unfold h; specialize (Bg k); rewrite Z.abs_eq by nia; nia).
  assert (BK : m * K <= 2 ^ 53) by nia.
  assert (Wg : forall k, whole (f64_ofZ (g k)) (g k)) by (intros k; apply ofZ_exact; specialize (Bg k); nia).
  assert (Wh : forall k, whole (nmul F64 (f64_ofZ (g k)) (f64_ofZ (g k))) (h k)) by (intros k; unfold h; replace (g k ^ 2) with (g k * g k) by lia; apply whole_mul; auto; specialize (Bh k); unfold h in Bh; replace (g k * g k) with (g k ^ 2) by lia; nia).
  unfold p_step in E. apply bind_Ok_inv in E as (d & Ed & E). apply get_whole in Ed as (Ed & Ri). fold (g i) in Ed. subst d.
  assert (Y1 : whole (nadd F64 ex (f64_ofZ (g i))) (sums g (i + 1) - sums g lo)).
  { rewrite sums_next by lia. replace (sums g i + g i - sums g lo) with (sums g i - sums g lo + g i) by lia. apply whole_add; auto.
    replace (sums g i - sums g lo + g i) with (sums g (i + 1) - sums g lo) by (rewrite sums_next; lia). apply (sums_le g K Bg); lia. }
  assert (Y2 : whole (nadd F64 ex2 (nmul F64 (f64_ofZ (g i)) (f64_ofZ (g i)))) (sums h (i + 1) - sums h lo)).
  { rewrite sums_next by lia. replace (sums h i + h i - sums h lo) with (sums h i - sums h lo + h i) by lia. apply whole_add; auto.
    replace (sums h i - sums h lo + h i) with (sums h (i + 1) - sums h lo) by (rewrite sums_next; lia). apply (sums_le h (K ^ 2) Bh); nia. }
  set (e := nadd F64 ex _) in *. set (e2 := nadd F64 ex2 _) in *. clearbody e e2.
  apply bind_Ok_inv in E as (t1 & E1 & E). apply bind_Ok_inv in E as (t2 & E2 & E).
  assert (Ht2 : forall k, Z.max 0 (i + 1 - m) <= k < i + 1 -> zget t2 (k mod m) = Ok (f64_ofZ (g k))).
  { intros k Hk. pose proof (Z.mod_pos_bound k m ltac:(lia)) as Mk. pose proof (Z.mod_pos_bound i m ltac:(lia)) as Mi.
    rewrite (zget_zset_neq _ _ _ _ _ E2) by lia. destruct (Z.eq_dec k i) as [->|Hne]; [exact (zget_zset_eq _ _ _ _ E1)|].
    assert (Hd : k mod m <> i mod m). { intros X. pose proof (SearchProofs.mod_window m k (i - k) ltac:(lia) ltac:(lia)) as Y. replace (k + (i - k)) with i in Y by lia. destruct (Z.ltb_spec (k mod m + (i - k)) m); lia. }
    rewrite (zget_zset_neq _ _ _ _ _ E1) by lia. apply Ht. lia. }
  unfold cinv. split; [lia|]. fold g. fold h. destruct (Z.leb_spec (m - 1) i) as [Hge|Hlt].
  - apply bind_Ok_inv in E as ((res & w1) & Ew & E). apply bind_Ok_inv in E as (x & Ex & E). injection E as <- <- <- <- <-.
    set (I := i - (m - 1)) in *. assert (Hlo : lo = I) by lia. rewrite Hlo in *.
    assert (Hj : (i + 1) mod m = I mod m). { replace (i + 1) with (I + 1 * m) by lia. apply Z.mod_add. lia. }
    pose proof Ex as Ex0. rewrite Hj, Ht2 in Ex by lia. injection Ex as <-.
    replace (Z.max 0 (i + 1 - (m - 1))) with (I + 1) by lia.
    split; [|split; [|split]].
    + rewrite (sums_next g I) by lia. replace (sums g (i + 1) - (sums g I + g I)) with (sums g (i + 1) - sums g I - g I) by lia. apply whole_sub; auto.
      replace (sums g (i + 1) - sums g I - g I) with (sums g (i + 1) - sums g (I + 1)) by (rewrite (sums_next g I); lia). apply (sums_le g K Bg); lia.
    + rewrite (sums_next h I) by lia. replace (sums h (i + 1) - (sums h I + h I)) with (sums h (i + 1) - sums h I - h I) by lia. apply whole_sub; [exact Y2|exact (Wh I)|].
      replace (sums h (i + 1) - sums h I - h I) with (sums h (i + 1) - sums h (I + 1)) by (rewrite (sums_next h I); lia). apply (sums_le h (K ^ 2) Bh); nia.
    + exact Ht2.
    + destruct (const_dec g (g I) (Z.to_nat m) I) as [C|C]; rewrite Z2Nat.id in C by lia.
      * assert (G1 : sums g (i + 1) - sums g I = m * g I). { pose proof (sums_const g (g I) (Z.to_nat m) I ltac:(lia)) as X. rewrite Z2Nat.id in X by lia. replace (i + 1) with (I + m) by lia. auto. }
        assert (G2 : sums h (i + 1) - sums h I = m * g I ^ 2). { pose proof (sums_const h (g I ^ 2) (Z.to_nat m) I ltac:(lia)) as X. rewrite Z2Nat.id in X by lia. replace (i + 1) with (I + m) by lia. apply X. intros k Hk. unfold h. now rewrite C. }
        rewrite G1 in Y1. rewrite G2 in Y2. assert (BI : m * g I ^ 2 <= 2 ^ 53) by (pose proof (Bh I) as X; change (h I) with (g I ^ 2) in X; rewrite Z.abs_eq in X by (rewrite Z.pow_2_r; apply Z.square_nonneg); apply (Z.mul_le_mono_nonneg_l _ _ m) in X; lia).
        pose proof (norm_const _ _ _ m (g I) ltac:(lia) BI Y1 Y2 (Wg I)) as Nn.
        unfold t_window in Ew. apply bind_Ok_inv in Ew as (k & Ek & Ew). apply (kim_first_nan _ _ _ _ _ _ _ _ _ Ex0 Nn) in Ek. subst k.
        change (nltb F64 S754_nan (b_bsf F64 b1)) with false in Ew. injection Ew as <- <-. exact Hbest.
      * destruct res as [v|]; auto. change (nltb F64 v (b_bsf F64 b1)) with (SFltb v (b_bsf F64 b1)). destruct (SFltb v (b_bsf F64 b1)); auto. right. cbn [b_loc]. assert (EI : base + i - m + 1 = base + I) by (unfold I; lia). rewrite EI. assert (HI : 0 <= I) by (unfold I; lia). assert (HI2 : I + m <= zlen zs) by (unfold I; lia). clearbody I. split; [lia|]. split; [lia|]. now replace (base + I - base) with I by lia.
  - injection E as <- <- <- <- <-. assert (Hlo : lo = 0) by lia. rewrite Hlo in *. replace (Z.max 0 (i + 1 - (m - 1))) with 0 by lia. auto.
Qed.
Lemma chunk_const qy (r base : Z) zs (t : list (num F64)) w b t' w' b' : Forall (fun z => Z.abs z <= K) zs -> chunk F64 qy m r base (map f64_ofZ zs) t w b = Ok (t', w', b') ->
  b' = b \/ (base <= b_loc F64 b' /\ b_loc F64 b' + m <= base + zlen zs /\ varied zs (b_loc F64 b' - base)).
Proof.
  intros F E. unfold chunk in E. apply bind_Ok_inv in E as ((l & u) & _ & E). apply bind_Ok_inv in E as (l' & _ & E). apply bind_Ok_inv in E as (u' & _ & E).
  apply bind_Ok_inv in E as (((((ex & ex2) & t2) & w2) & b2) & El & E). injection E as <- <- <-. unfold for_ in El.
  apply (loop_inv_at (cinv zs base b)) in El; [now destruct El as (_ & _ & _ & _ & H)|intros i s s'; now apply step_const|].
  assert (W0 : whole (nzero F64) 0) by (split; [split; [reflexivity|exact I]|reflexivity]).
  unfold cinv. split; [lia|]. replace (Z.max 0 (0 - (m - 1))) with 0 by lia. rewrite !Z.sub_diag. split; [exact W0|]. split; [exact W0|]. split; [lia|auto].
Qed.
(** All chunks of a file. *)
Definition soundc (ws : list Z) (b : best F64) : Prop := (b_bsf F64 b = big F64 /\ b_loc F64 b = 0) \/ varied ws (b_loc F64 b).
Lemma slice_nth (ws : list Z) s n k : 0 <= s -> 0 <= k < zlen (zslice ws s n) -> nthz (zslice ws s n) k = nthz ws (s + k).
Proof.
  intros Hs Hk. pose proof (get_slice ws s n k Hs Hk) as E. unfold zget in E. destruct (Z.ltb_spec k 0); [lia|]. destruct (Z.ltb_spec (s + k) 0); [lia|]. unfold nthz.
  unfold zlen in Hk. rewrite (nth_error_nth' _ 0) in E by lia. destruct (nth_error ws (Z.to_nat (s + k))) eqn:X; [|discriminate]. injection E as ->. symmetry. now apply nth_error_nth.
Qed.
Lemma chunks_const (ws : list Z) qy (epoch r : Z) : m <= epoch -> Forall (fun z => Z.abs z <= K) ws -> forall fuel it xs d (buffer t : list (num F64)) w b fo,
  let base := it * (epoch - m + 1) in
  0 <= it -> ((it = 0 /\ xs = map f64_ofZ ws) \/ (0 < it /\ xs = skipn (Z.to_nat (base + (m - 1))) (map f64_ofZ ws) /\ zslice buffer (epoch - m + 1) (m - 1) = zslice (map f64_ofZ ws) base (m - 1))) ->
  soundc ws b -> chunks F64 fuel epoch qy m r it (mkNFile F64 xs false) d buffer t w b = Ok fo -> soundc ws (mkBest F64 (fo_bsf F64 fo) (fo_loc F64 fo)).
Proof.
  intros He Fw. set (file := map f64_ofZ ws : list (num F64)). induction fuel as [|fuel IH]; intros it xs d buffer t w b fo base Hit Hfile Hbs E; cbn [chunks] in E; [discriminate|].
  assert (Hb0 : 0 <= base) by (unfold base; nia).
  set (rest := skipn (Z.to_nat (base + (m - 1))) file).
  assert (Hh : exists d', (if it =? 0 then read_n F64 (Z.to_nat (m - 1)) (mkNFile F64 xs false) d else Ok (zslice buffer (epoch - m + 1) (m - 1), mkNFile F64 xs false, d)) = Ok (zslice file base (m - 1), mkNFile F64 rest false, d')).
  { destruct Hfile as [(-> & ->)|(Hi & -> & Eh)].
    - destruct (read_n_any F64 (Z.to_nat (m - 1)) file d) as (d' & E1). exists d'. cbn [Z.eqb]. rewrite E1. reflexivity.
    - exists d. destruct (Z.eqb_spec it 0); [lia|]. now rewrite Eh. }
  destruct Hh as (d1 & E1). rewrite E1 in E. cbn [bind] in E. destruct (_ <? _); [discriminate|].
  destruct (read_n_any F64 (Z.to_nat (epoch - (m - 1))) rest d1) as (d2 & E2). rewrite E2 in E. cbn [bind] in E. fold base in E.
  change (firstn (Z.to_nat (epoch - (m - 1))) rest) with (zslice file (base + (m - 1)) (epoch - (m - 1))) in E.
  assert (EB : zslice file base (m - 1) ++ zslice file (base + (m - 1)) (epoch - (m - 1)) = zslice file base epoch) by (rewrite SearchProofs.zslice_split by lia; f_equal; lia).
  rewrite EB in E. destruct (zlen (zslice file (base + (m - 1)) (epoch - (m - 1))) =? 0); [injection E as <-; destruct b; exact Hbs|].
  apply bind_Ok_inv in E as (((t1 & w1) & b1) & Ec & E).
  assert (Hb1 : soundc ws b1).
  { unfold file in Ec. rewrite SearchProofs.zslice_map in Ec. apply chunk_const in Ec as [->|(A1 & A2 & k & A3 & A4)]; auto.
    - right. exists (base + k). split; [lia|]. rewrite !slice_nth in A4 by lia. now replace (base + (b_loc F64 b1 - base)) with (b_loc F64 b1) in A4 by lia.
    - apply Forall_forall. intros z Hz. rewrite Forall_forall in Fw. apply Fw. unfold zslice in Hz.
      rewrite <- (firstn_skipn (Z.to_nat base) ws). apply in_or_app. right. rewrite <- (firstn_skipn (Z.to_nat epoch) (skipn (Z.to_nat base) ws)). apply in_or_app. now left. }
  destruct (_ <? epoch); [injection E as <-; destruct b1; exact Hb1|].
  assert (Eb : (it + 1) * (epoch - m + 1) = base + (epoch - m + 1)) by (unfold base; lia).
  apply IH in E; auto; [lia|]. right. rewrite Eb. split; [lia|]. split.
  - unfold rest. rewrite SearchProofs.skipn_skipn. f_equal. lia.
  - rewrite SearchProofs.zslice_sub by lia. f_equal; lia.
Qed.
End Const.
