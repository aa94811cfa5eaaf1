(** * Property C42: representatives are saved with 16 digits.

    [reread 16 x y] (GroupFileSpec.v): [y] is what a reader finds after [x] was printed with 16 significant digits. *)
From Coq Require Import ZArith Bool Lia Reals Lra SpecFloat Ascii String List.
From Flocq Require Import Core BinarySingleNaN.
From Verif Require Import Outcome Num Lemire Distance TimeSeries Text Dataset Groups Api F64Base F64Laws DecSpec NumSpec DecProofs PrintProofs StreamProofs Spec GroupSpec FileSpec GroupFileSpec
  GroupProofs SessionProofs DigitsProofs GroupFileProofs Properties_Groups Properties_Match Properties_Data Properties_GroupFile.
Import ListNotations.
Open Scope Z_scope.

(** [x] is the double nearest to a decimal number with at most 16 digits (as a value that was read from such a numeral is), and
    either equal to that number or not a power of two or the opposite of one. *)
Definition short (x : spec_float) : Prop :=
  exists neg m e, 0 <= m < 10 ^ 16 /\ double_of x neg (dec_real neg m e) /\ (val x = dec_real neg m e \/ forall k, (Rabs (val x) <> bpow radix2 k)%R).

(** Such a double is read back unchanged. *)
Theorem C42_exact : forall x y, short x -> reread 16 x y -> y = x.
Proof.
  intros x y (neg & m & e & Hm & (Fx & Vx & Sx) & Hn) Hy. apply (double_of_unique y x (sign_SF x) (round10 16 (val x))); auto.
  split; auto. split; auto. symmetry. destruct Hn as [Ev|Hn]; [|apply (reread_value 16 (val x) neg m e); auto; lia].
  rewrite <- (rnd_val x Fx) at 2. f_equal. apply round_generic; [apply valid_rnd_N|]. rewrite Ev. apply digits_format; lia.
Qed.
(** Every other one is changed by at most one part in 10^15. *)
Theorem C42_error : forall x y, fin64 x -> reread 16 x y -> (Rabs (val y - val x) <= / 10 ^ 15 * Rabs (val x))%R.
Proof.
  intros x y Fx (_ & Vy & _). rewrite Vy. pose proof (reread_error 16 (val x) ltac:(lia) (format_val x Fx)) as E.
  replace (/ 10 ^ 15)%R with (bpow radix10 (1 - 16)); auto. rewrite pow_IZR. reflexivity.
Qed.
(** Without the condition on powers of two this is false: the double nearest to 5.960464477539063e-08 is the 24th negative power of two,
    which prints as a decimal that reads as the double before it. *)
Theorem C42_power_witness : exists x y, io_conv F64_IO (T_ "5.960464477539063e-08") = (x, true, []) /\ io_conv F64_IO (io_print F64_IO 16 x) = (y, true, []) /\ SFltb y x = true.
Proof. exists (S754_finite false 4503599627370496 (-76)), (S754_finite false 9007199254740991 (-77)). vm_compute. auto. Qed.

Lemma nth_error_ext' {A} (l : list A) : forall l', length l = length l' -> (forall k x y, nth_error l k = Some x -> nth_error l' k = Some y -> x = y) -> l = l'.
Proof.
  induction l as [|a l IH]; intros [|b l'] Hl H; cbn in Hl; try lia; auto. f_equal; [apply (H 0%nat); reflexivity|]. apply IH; [lia|]. intros k. apply (H (S k)).
Qed.
Lemma zget_of_nth {A} (l : list A) k x : nth_error l k = Some x -> zget l (Z.of_nat k) = Ok x.
Proof. intros H. unfold zget. destruct (Z.ltb_spec (Z.of_nat k) 0); [lia|]. now rewrite Nat2Z.id, H. Qed.
Lemma some_inj {A} (x y : A) : Some x = Some y -> x = y.
Proof. congruence. Qed.
Lemma short_list v v' : Forall short v -> rereads 16 v v' -> v' = v.
Proof.
  intros H (Hl & Hr). apply nth_error_ext'; [unfold zlen in Hl; lia|]. intros k x y Ex Ey. rewrite Forall_forall in H.
  apply C42_exact; [apply H; eapply nth_error_In; eauto|]. apply (Hr (Z.of_nat k)); apply zget_of_nth; auto.
Qed.

Lemma short_prints x : short x -> prints 16 x.
Proof.
  intros H. pose proof H as (neg & m & e & _ & (Fx & _) & _). split; auto. assert (V : val x = rnd (round10 16 (val x))).
  { pose proof H as (neg' & m' & e' & Hm & (_ & Vx & _) & Hn). symmetry. destruct Hn as [Ev|Hn]; [|apply (reread_value 16 (val x) neg' m' e'); auto; lia].
    rewrite <- (rnd_val x Fx) at 2. f_equal. apply round_generic; [apply valid_rnd_N|]. rewrite Ev. apply digits_format; lia. }
  rewrite <- V. pose proof (val_fin_bound x Fx). apply Rabs_lt. exact H0.
Qed.

Section Reload.
Context (writable : string -> bool).
Local Notation step := (step F64 F64_IO writable).
Local Notation st := (st F64).
Local Notation has := (has_dataset F64).

(** The groups of a dataset of such values come back from a file with the same representatives and the same members (in reverse
    order). *)
Definition reversed (data : list spec_float) (len L : Z) (gm : list (list coord)) : list (list spec_float * list coord) :=
  map (fun ms => (sub_values F64 data len L (hd (0, 0) ms), rev ms)) gm.
Theorem C42_reload : forall (σ : st) i thr t data p gmf, grouped_earlier F64 F64_IO writable σ i thr t data -> writable p = true -> fin64 thr ->
  set_count t < 2 ^ 31 -> set_len t <= 2 ^ 30 -> set_count t * set_len t < 2 ^ 31 -> Forall short data ->
  (forall L, 2 <= L <= set_len t -> groups_now F64 σ i t data L (gmf L)) ->
  exists σ1 file, step σ (OpSaveGroup F64 i p false) = Done F64 σ1 (VUnit F64) /\ st_files F64 σ1 p = Some file /\
    forall (σ' : st) j dj data', st_files F64 σ' p = Some file -> dataset F64 σ' j dj data' ->
      set_count (ds_set F64 dj) = set_count t -> set_len (ds_set F64 dj) = set_len t ->
      exists σ2 d2 gs, step σ' (OpLoadGroup F64 j p) = Done F64 σ2 (VInt F64 (group_total gmf (set_len t))) /\ dataset F64 σ2 j d2 data' /\
        ds_set F64 d2 = ds_set F64 dj /\ ds_groups F64 d2 = Some gs /\ gs_name F64 gs = "euclidean"%string /\
        (forall L, 2 <= L <= set_len t -> holds (st_heap F64 σ2) (ds_set F64 dj) data' gs L (reversed data (set_len t) L (gmf L))) /\
        (forall k e, k <> j -> has σ2 k e <-> has σ' k e) /\ st_heap F64 σ2 = st_heap F64 σ' /\ st_ratio F64 σ2 = st_ratio F64 σ'.
Proof.
  intros σ i thr t data p gmf G Hp Ft Hcm Hlen Hsz Hsh Hnow.
  assert (Hpr : Forall (prints 16) data) by (revert Hsh; apply Forall_impl; apply short_prints).
  destruct (C40_reload writable σ i thr t data p gmf G Hp Ft Hcm Hlen Hsz Hpr Hnow) as (σ1 & file & E & Ef & H). exists σ1, file. split; auto. split; auto.
  intros σ' j dj data' Hf D Hc Hl. destruct (H σ' j dj data' Hf D Hc Hl) as (σ2 & d2 & gs & thr2 & f & E2 & D2 & X1 & X2 & X3 & _ & _ & X4 & X5 & X6 & X7).
  exists σ2, d2, gs. do 5 (split; [assumption|]). split; [|auto]. intros L HL. destruct (X4 L HL) as (W & Ho).
  replace (reversed data (set_len t) L (gmf L)) with (f L); auto. destruct W as (Wl & W). apply nth_error_ext'; [unfold reversed; rewrite map_length; apply Nat2Z.inj; exact Wl|].
  intros k (v, cs) q Ev Eq. destruct (nth_error (gmf L) k) as [ms|] eqn:Em.
  2: { exfalso. apply nth_error_None in Em. assert (X : (k < length (f L))%nat) by (apply nth_error_Some; congruence). unfold zlen in Wl. change (list coord) with (list (Z * Z)) in *. lia. }
  pose proof (some_inj _ _ (eq_trans (eq_sym (map_nth_error (fun ms => (sub_values F64 data (set_len t) L (hd (0, 0) ms), rev ms)) _ _ Em)) Eq)) as Q. subst q.
  destruct (W (Z.of_nat k) ms v cs) as (-> & R); [now apply zget_of_nth|now apply zget_of_nth|]. apply (f_equal (fun w => (w, rev ms))). apply short_list; auto.
  apply Forall_forall. intros x Hx. rewrite Forall_forall in Hsh. apply Hsh. eapply in_slice; eauto.
Qed.
End Reload.

(** ** Cases: integers, and one tenth. *)
Lemma between_powers r k : (bpow radix2 k < Rabs r < bpow radix2 (k + 1))%R -> forall j, (Rabs r <> bpow radix2 j)%R.
Proof. intros (H1 & H2) j E. rewrite E in H1, H2. apply lt_bpow in H1, H2. lia. Qed.
Lemma short_Z z : Z.abs z < 10 ^ 15 -> short (f64_ofZ z).
Proof.
  intros Hz. destruct (ofZ_exact z) as (F & V); [lia|]. exists (z <? 0), (Z.abs z), 0. split; [lia|].
  assert (D : val (f64_ofZ z) = dec_real (z <? 0) (Z.abs z) 0).
  { rewrite V. unfold dec_real. cbn [bpow]. rewrite Rmult_1_r. f_equal. destruct (Z.ltb_spec z 0); cbn [opp_if]; lia. }
  split; [|now left]. split; auto. split; [rewrite <- D; symmetry; now apply rnd_val|].
  destruct (f64_ofZ z) as [s| | |s m e] eqn:E; destruct F as (_ & F); try contradiction; cbn [val] in V; cbn [sign_SF].
  - apply eq_sym, eq_IZR in V. subst z. vm_compute in E. injection E as <-. reflexivity.
  - destruct s; cbn [cond_Zopp] in V.
    + assert (IZR z < 0)%R by (rewrite <- V; apply F2R_lt_0; cbn; lia). apply lt_IZR in H. symmetry. apply Z.ltb_lt. lia.
    + assert (0 < IZR z)%R by (rewrite <- V; apply F2R_gt_0; cbn; lia). apply lt_IZR in H. symmetry. apply Z.ltb_ge. lia.
Qed.
Example C42_case : short (f64_ofZ 1) /\ short (f64_ofZ 123456789) /\ exists x, io_conv F64_IO (T_ "0.1") = (x, true, []) /\ short x.
Proof.
  split; [apply short_Z; lia|]. split; [apply short_Z; lia|]. exists (S754_finite false 7205759403792794 (-56)). split; [vm_compute; reflexivity|].
  exists false, 1, (-1). split; [lia|].
  assert (R0 : rnd (dec_real false 1 (-1)) = val (S754_finite false 7205759403792794 (-56))).
  { assert (B : (Rabs (rnd (dec_real false 1 (-1))) < BIG)%R).
    { assert (Q : (0 <= rnd (dec_real false 1 (-1)) <= rnd 1)%R) by (unfold dec_real; cbn; split; [apply rnd_pos; lra|apply rnd_le; lra]).
      rewrite (rnd_id 1) in Q by (apply (format_Z 1); lia). rewrite Rabs_pos_eq by lra. apply Rle_lt_trans with 1%R; [lra|]. unfold BIG; change 1%R with (bpow radix2 0); apply bpow_lt; lia. }
    destruct (lit_double false 1 (-1) ltac:(lia) B) as (_ & V & _). rewrite <- V. reflexivity. }
  split.
  - split; [|split; [now rewrite R0|reflexivity]]. apply fin64b_spec. vm_compute. reflexivity.
  - right. apply (between_powers _ (-4)). cbn [val cond_Zopp]. unfold F2R. cbn [Fnum Fexp]. rewrite Rabs_pos_eq by (cbn; lra). cbn. lra.
Qed.
Example C42_reload_case : exists σ gmf, grouped_earlier F64 F64_IO (fun _ => true) σ 0 (f64_ofZ 1) ex_set (map f64_ofZ ex_ints) /\ fin64 (f64_ofZ 1) /\ Forall short (map f64_ofZ ex_ints) /\
  forall L, 2 <= L <= set_len ex_set -> groups_now F64 σ 0 ex_set (map f64_ofZ ex_ints) L (gmf L).
Proof.
  destruct C40_case as (σ & gmf & G & F & _ & H). exists σ, gmf. split; auto. split; auto. split; auto.
  apply Forall_forall. intros x Hx. apply in_map_iff in Hx as (z & <- & Hz). apply short_Z. unfold ex_ints in Hz. cbn in Hz. lia.
Qed.
