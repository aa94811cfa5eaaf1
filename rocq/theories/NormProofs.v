(** * Normalization in binary64. *)
From Coq Require Import ZArith Bool Lia Reals Lra SpecFloat String List.
From Flocq Require Import Core BinarySingleNaN Plus_error.
From Verif Require Import Outcome Num Lemire Distance TimeSeries Text Dataset Groups Api Laws F64Base.
From Verif Require Import TsProofs GroupSpec GroupProofs SessionProofs DataProofs.
Import ListNotations.
Open Scope Z_scope.

(** ** Applying a function to every value. *)
Lemma map_data_spec N (f : num N -> num N) count len data : 0 <= count -> 0 <= len -> count * len <= zlen data ->
  Post (map_data N f count len data) (fun data' => zlen data' = zlen data /\
    (forall t j x, 0 <= t < count -> 0 <= j < len -> zget data (t * len + j) = Ok x -> zget data' (t * len + j) = Ok (f x)) /\
    (forall p, count * len <= p -> zget data' p = zget data p)).
Proof.
  intros Hc Hl Hz. unfold map_data.
  set (I := fun t j (d : list (num N)) => zlen d = zlen data /\
    (forall p x, 0 <= p < t * len + j -> zget data p = Ok x -> zget d p = Ok (f x)) /\
    (forall p, t * len + j <= p -> zget d p = zget data p)).
  assert (P : Post (for_ 0 count (fun t data => for_ 0 len (fun i data => x <- zget data (t * len + i) ;; zset data (t * len + i) (f x)) data) data)
    (I (Z.max 0 count) 0)).
  { apply (for_rule (fun t d => I t 0 d)).
    - split; auto. split; auto. intros p x Hp. lia.
    - intros t d Ht (I1 & I2 & I3). eapply Post_conseq.
      + apply (for_rule (fun j d => I t j d)); [split; auto|].
        intros j d1 Hj (J1 & J2 & J3).
        destruct (zget_Ok data (t * len + j) ltac:(nia)) as (x & Hx). rewrite J3 by lia. rewrite Hx. cbn [bind].
        pose proof (zset_Ok d1 (t * len + j) (f x) ltac:(nia)) as Ed. rewrite Ed.
        revert Ed. generalize (list_set d1 (Z.to_nat (t * len + j)) (f x)). intros d2 Ed. apply Post_Ok.
        split; [apply zset_len in Ed; lia|]. split.
        * intros p y Hp Hy. destruct (Z.eq_dec p (t * len + j)) as [->|Hne].
          -- rewrite (zget_zset_eq _ _ _ _ Ed). congruence.
          -- rewrite (zget_zset_neq _ _ p _ _ Ed) by lia. apply J2; auto. lia.
        * intros p Hp. rewrite (zget_zset_neq _ _ p _ _ Ed) by lia. apply J3. lia.
      + rewrite Z.max_r by lia. intros d1 (J1 & J2 & J3). split; auto. split; intros; [apply J2|apply J3]; auto; lia. }
  eapply Post_conseq; [exact P|]. rewrite Z.max_r by lia. intros d (I1 & I2 & I3). split; auto. split.
  - intros t j x Ht Hj Hx. apply I2; auto. nia.
  - intros p Hp. apply I3. lia.
Qed.

Open Scope R_scope.

(** ** Extremes. *)
Definition INFP : spec_float := S754_infinity false.
Definition INFN : spec_float := S754_infinity true.
Definition ext (P : spec_float -> Prop) (s : spec_float * spec_float) : Prop :=
  (forall x, P x -> fin64 x /\ val (fst s) <= val x <= val (snd s)) /\
  ((fst s = INFP /\ snd s = INFN /\ forall x, ~ P x) \/ (P (fst s) /\ P (snd s))).
Lemma ext_iff P Q s : (forall x, P x <-> Q x) -> ext P s -> ext Q s.
Proof.
  intros E (A & B). split; [intros x Hx; apply A, E, Hx|]. destruct B as [(B1 & B2 & B3)|(B1 & B2)]; [left|right; split; now apply E].
  split; auto. split; auto. intros x Hx. apply (B3 x), E, Hx.
Qed.
Lemma ext_add P mn mx lo hi : ext P (mn, mx) -> fin64 lo -> fin64 hi -> val lo <= val hi ->
  ext (fun x => P x \/ x = lo \/ x = hi) (if SFltb lo mn then lo else mn, if SFltb mx hi then hi else mx).
Proof.
  intros (A & B) Fl Fh Hle. cbn [fst snd] in *. pose proof BIG_gt0.
  assert (Omn : ok64 mn) by (destruct B as [(-> & _)|(B & _)]; [split; [reflexivity|discriminate]|apply fin_ok, A, B]).
  assert (Omx : ok64 mx) by (destruct B as [(_ & -> & _)|(_ & B)]; [split; [reflexivity|discriminate]|apply fin_ok, A, B]).
  pose proof (val_fin_bound _ Fl). pose proof (val_fin_bound _ Fh).
  pose proof (ltb_true lo mn (fin_ok _ Fl) Omn) as L1. pose proof (ltb_false lo mn (fin_ok _ Fl) Omn) as L2.
  pose proof (ltb_true mx hi Omx (fin_ok _ Fh)) as L3. pose proof (ltb_false mx hi Omx (fin_ok _ Fh)) as L4.
  assert (E1 : val (if SFltb lo mn then lo else mn) <= val lo /\ val (if SFltb lo mn then lo else mn) <= val mn).
  { case_eq (SFltb lo mn); intros C; [apply L1 in C|apply L2 in C]; lra. }
  assert (E2 : val hi <= val (if SFltb mx hi then hi else mx) /\ val mx <= val (if SFltb mx hi then hi else mx)).
  { case_eq (SFltb mx hi); intros C; [apply L3 in C|apply L4 in C]; lra. }
  split; cbn [fst snd].
  - intros x [Hx|[->| ->]]; [destruct (A x Hx) as (F & R); split; auto; lra|split; auto; lra|split; auto; lra].
  - right. destruct B as [(-> & -> & B3)|(B1 & B2)].
    + assert (X1 : SFltb lo INFP = true) by (apply L1; cbn [val INFP]; lra).
      assert (X2 : SFltb INFN hi = true) by (apply L3; cbn [val INFN]; lra). rewrite X1, X2. auto.
    + split; [destruct (SFltb lo mn)|destruct (SFltb mx hi)]; auto.
Qed.

Open Scope Z_scope.
(** Number of columns that the scan looks at. *)
Definition columns_seen (count len : Z) : Z := if Z.odd len && Z.even count then len - 1 else len.
Definition seen (data : list (num F64)) (count len c : Z) (x : spec_float) : Prop :=
  exists t j, 0 <= t < count /\ 0 <= j < c /\ zget data (t * len + j) = Ok x.
Definition seen_upto (data : list (num F64)) (len c t j : Z) (x : spec_float) : Prop :=
  seen data t len c x \/ exists k, 0 <= k < j /\ zget data (t * len + k) = Ok x.

Lemma minmax_row_spec (data : list (num F64)) count len t s : 1 <= len -> 0 <= t < count -> count * len <= zlen data -> Forall fin64 data ->
  ext (seen data t len (columns_seen count len)) s ->
  Post (minmax_row F64 data (len * count) len t s) (ext (seen data (t + 1) len (columns_seen count len))).
Proof.
  intros Hl Ht Hz F E. set (c := columns_seen count len) in *. destruct s as (mn & mx). unfold minmax_row.
  assert (Fx : forall p x, zget data p = Ok x -> fin64 x).
  { intros p x Hx. apply zget_inv in Hx as (_ & Hx). apply nth_error_In in Hx. rewrite Forall_forall in F. auto. }
  set (i0 := if Z.rem (len * count) 2 =? 0 then 0 else 1).
  assert (Hi0 : i0 = (if Z.odd len && Z.odd count then 1 else 0)).
  { unfold i0. rewrite Z.rem_mod_nonneg by nia. rewrite <- Z.odd_mul. destruct (Z.odd (len * count)) eqn:O; rewrite Zmod_odd, O; reflexivity. }
  assert (Hc : c = i0 + 2 * ((len - i0) / 2)).
  { unfold c, columns_seen. rewrite Hi0. rewrite <- Z.negb_odd.
    destruct (Z.odd len) eqn:O1; cbn [andb negb].
    - apply Z.odd_spec in O1 as (m & ->). destruct (Z.odd count); cbn [negb].
      + replace (2 * m + 1 - 1) with (m * 2) by lia. rewrite Z.div_mul by lia. lia.
      + replace (2 * m + 1 - 0) with (1 + m * 2) by lia. rewrite Z.div_add by lia. change (1 / 2) with 0. lia.
    - rewrite <- Z.negb_even in O1. apply negb_false_iff, Z.even_spec in O1 as (m & ->). rewrite Z.sub_0_r, Z.mul_comm, Z.div_mul by lia. lia. }
  assert (Hi0r : 0 <= i0 <= 1) by (rewrite Hi0; destruct (_ && _); lia).
  eapply (Post_seq (ext (seen_upto data len c t i0))).
  - destruct (Z.eqb_spec i0 1) as [E1|E1].
    + destruct (zget_Ok data (t * len) ltac:(nia)) as (x & Hx). rewrite Hx. cbn [bind]. apply Post_Ok.
      eapply ext_iff; [|exact (ext_add _ mn mx x x E (Fx _ _ Hx) (Fx _ _ Hx) (Rle_refl _))].
      intros y. unfold seen_upto. rewrite E1. split.
      * intros [H|H]; [now left|right]. exists 0. split; [lia|]. rewrite Z.add_0_r. destruct H as [->| ->]; exact Hx.
      * intros [H|(k & Hk & H)]; [now left|right; left]. assert (k = 0) by lia. subst k. rewrite Z.add_0_r, Hx in H. now injection H as ->.
    + assert (i0 = 0) as -> by lia. apply Post_Ok. eapply ext_iff; [|exact E]. intros y. unfold seen_upto. split; auto.
      intros [H|(k & Hk & _)]; auto. lia.
  - intros (mn1 & mx1) E1. eapply Post_conseq.
    + apply (for_rule (fun k s => ext (seen_upto data len c t (i0 + 2 * k)) s)).
      * now rewrite Z.mul_0_r, Z.add_0_r.
      * intros k (mn2 & mx2) Hk E2. unfold minmax_pair. set (i := i0 + 2 * k) in *.
        assert (Hi : 0 <= i /\ i + 1 < len). { pose proof (Z.mul_div_le (len - i0) 2 ltac:(lia)). lia. }
        destruct (zget_Ok data (t * len + i) ltac:(nia)) as (x & Hx). rewrite Hx. cbn [bind].
        destruct (zget_Ok data (t * len + (i + 1)) ltac:(nia)) as (y & Hy). rewrite Hy. cbn [bind].
        pose proof (Fx _ _ Hx) as F1. pose proof (Fx _ _ Hy) as F2.
        assert (Q : forall z, seen_upto data len c t i z \/ z = x \/ z = y <-> seen_upto data len c t (i0 + 2 * (k + 1)) z).
        { intros z. unfold seen_upto. replace (i0 + 2 * (k + 1)) with (i + 2) by lia. split.
          - intros [[H|(p & Hp & H)]|[->| ->]]; [now left|right; exists p; split; [lia|auto]|right; exists i; split; [lia|auto]|right; exists (i + 1); split; [lia|auto]].
          - intros [H|(p & Hp & H)]; [now do 2 left|]. assert (p < i \/ p = i \/ p = i + 1) as [Hp'|[->| ->]] by lia.
            + left. right. exists p. split; [lia|auto].
            + right. left. rewrite Hx in H. now injection H as ->.
            + right. right. rewrite Hy in H. now injection H as ->. }
        cbn [nltb F64]. destruct (SFltb y x) eqn:B.
        -- apply Post_Ok. apply ltb_true in B; try now apply fin_ok.
           eapply ext_iff; [|exact (ext_add _ mn2 mx2 y x E2 F2 F1 ltac:(lra))]. intros z. rewrite <- Q. tauto.
        -- apply Post_Ok. apply ltb_false in B; try now apply fin_ok.
           eapply ext_iff; [|exact (ext_add _ mn2 mx2 x y E2 F1 F2 B)]. intros z. rewrite <- Q. tauto.
    + intros s1 E2. eapply ext_iff; [|exact E2].
      assert (Hm : Z.max 0 ((len - i0) / 2) = (len - i0) / 2) by (pose proof (Z.div_pos (len - i0) 2); lia). rewrite Hm, <- Hc.
      intros z. unfold seen_upto, seen. split.
      * intros [(t' & j & H1 & H2 & H3)|(k & H1 & H2)]; [exists t', j|exists t, k]; repeat split; auto; lia.
      * intros (t' & j & H1 & H2 & H3). destruct (Z.eq_dec t' t) as [->|]; [right; exists j; auto|left; exists t', j; repeat split; auto; lia].
Qed.

Theorem minmax_spec (data : list (num F64)) count len : 1 <= len -> 0 <= count -> count * len <= zlen data -> Forall fin64 data ->
  Post (for_ 0 count (minmax_row F64 data (len * count) len) (INFP, INFN)) (ext (seen data count len (columns_seen count len))).
Proof.
  intros Hl Hc Hz F. eapply Post_conseq.
  - apply (for_rule (fun t s => ext (seen data t len (columns_seen count len)) s)).
    + assert (X : forall x, ~ seen data 0 len (columns_seen count len) x) by (intros x (t & j & H & _); lia).
      split; [intros x Hx; now destruct (X x)|]. left. auto.
    + intros t s Ht E. apply minmax_row_spec; auto.
  - now rewrite Z.max_r by lia.
Qed.

(** ** The map. *)
Open Scope R_scope.
Definition sub64 := SFsub prec64 emax64.
Definition div64 := SFdiv prec64 emax64.
Definition scale (mn mx x : spec_float) : spec_float := div64 (sub64 x mn) (sub64 mx mn).

Lemma val_inj_nz x y : fin64 x -> fin64 y -> val x = val y -> val x <> 0 -> x = y.
Proof.
  intros Hx Hy E Hn.
  destruct (to_B x (proj1 Hx)) as (bx & <- & F1 & R1 & S1 & _).
  destruct (to_B y (proj1 Hy)) as (b_y & <- & F2 & R2 & S2 & _).
  f_equal. apply B2R_inj.
  - specialize (F1 Hx). destruct bx; cbn in *; try congruence; try lra.
  - specialize (F2 Hy). destruct b_y; cbn in *; try congruence; try lra.
  - rewrite R1, R2; auto.
Qed.
Lemma rnd_neq0 x y : fin64 x -> fin64 y -> val x <> val y -> rnd (val x - val y) <> 0.
Proof.
  intros Hx Hy Hn. apply (round_plus_neq_0 radix2 fexp64 ZnearestE (val x) (- val y)); [now apply format_val| |lra].
  apply generic_format_opp. now apply format_val.
Qed.
Lemma format1 : generic_format radix2 fexp64 1.
Proof. change 1 with (bpow radix2 0). apply format_bpow. lia. Qed.

(** [mn < mx], finite difference, [mn <= x <= mx]. *)
Section Scale.
Context (mn mx : spec_float) (Fn : fin64 mn) (Fm : fin64 mx) (Hlt : val mn < val mx) (Fd : fin64 (sub64 mx mn)).
Lemma diff_val : val (sub64 mx mn) = rnd (val mx - val mn) /\ 0 < val (sub64 mx mn).
Proof.
  destruct (sub_rnd mx mn Fm Fn) as (O & V). fold sub64 in *. pose proof (val_fin_bound _ Fd) as B. pose proof (clip_bound (rnd (val mx - val mn))).
  assert (E : val (sub64 mx mn) = rnd (val mx - val mn)).
  { unfold sub64 in *. rewrite V in *. unfold clip, Rmin, Rmax in *. destruct (Rle_dec _ BIG); destruct (Rle_dec _ _); lra. }
  split; auto. rewrite E. pose proof (rnd_pos (val mx - val mn) ltac:(lra)). pose proof (rnd_neq0 mx mn Fm Fn ltac:(lra)). lra.
Qed.
Lemma sub_val x : fin64 x -> val mn <= val x <= val mx -> fin64 (sub64 x mn) /\ val (sub64 x mn) = rnd (val x - val mn) /\
  0 <= val (sub64 x mn) <= val (sub64 mx mn).
Proof.
  intros Fx Hx. destruct diff_val as (Ed & Hd). destruct (sub_rnd x mn Fx Fn) as (O & V). fold sub64 in O, V.
  pose proof (val_fin_bound _ Fd) as B. pose proof (rnd_pos (val x - val mn) ltac:(lra)).
  assert (R : rnd (val x - val mn) <= rnd (val mx - val mn)) by (apply rnd_le; lra).
  rewrite clip_id in V by lra. unfold sub64 at 1. split; [apply fin_val_bound; [exact O|unfold sub64 in *; lra]|]. split; [exact V|]. unfold sub64 in *. lra.
Qed.
Lemma scale_val x : fin64 x -> val mn <= val x <= val mx -> fin64 (scale mn mx x) /\
  val (scale mn mx x) = rnd (rnd (val x - val mn) / rnd (val mx - val mn)) /\ 0 <= val (scale mn mx x) <= 1.
Proof.
  intros Fx Hx. destruct diff_val as (Ed & Hd). destruct (sub_val x Fx Hx) as (Fs & Vs & Bs).
  destruct (div_rnd (sub64 x mn) (sub64 mx mn) Fs Fd ltac:(lra)) as (O & V). fold (scale mn mx x) in *.
  change (SFdiv prec64 emax64 (sub64 x mn) (sub64 mx mn)) with (scale mn mx x) in *.
  assert (Q : 0 <= val (sub64 x mn) / val (sub64 mx mn) <= 1).
  { split; [apply Rle_mult_inv_pos; lra|]. apply Rmult_le_reg_r with (val (sub64 mx mn)); auto. unfold Rdiv. rewrite Rmult_assoc, Rinv_l by lra. lra. }
  pose proof (rnd_pos _ (proj1 Q)) as R0. pose proof (rnd_le _ _ (proj2 Q)) as R1. rewrite (rnd_id 1 format1) in R1.
  assert (HB : 2 <= BIG) by (change 2 with (bpow radix2 1); apply bpow_le; lia).
  rewrite clip_id in V by lra. split; [apply fin_val_bound; [exact O|lra]|]. rewrite V, Vs, Ed. split; auto. rewrite <- Vs, <- Ed. lra.
Qed.
Lemma scale_mono x y : fin64 x -> fin64 y -> val mn <= val x -> val x <= val y -> val y <= val mx ->
  val (scale mn mx x) <= val (scale mn mx y).
Proof.
  intros Fx Fy H1 H2 H3. destruct diff_val as (Ed & Hd).
  destruct (scale_val x Fx ltac:(lra)) as (_ & -> & _). destruct (scale_val y Fy ltac:(lra)) as (_ & -> & _).
  rewrite <- Ed. apply rnd_le. apply Rmult_le_compat_r; [left; now apply Rinv_0_lt_compat|]. apply rnd_le. lra.
Qed.
Lemma scale_min x : fin64 x -> val x = val mn -> val (scale mn mx x) = 0.
Proof.
  intros Fx Hx. destruct (scale_val x Fx ltac:(lra)) as (_ & -> & _). rewrite Hx, Rminus_diag_eq, rnd_0 by auto. unfold Rdiv. now rewrite Rmult_0_l, rnd_0.
Qed.
Lemma scale_max x : fin64 x -> val x = val mx -> val (scale mn mx x) = 1.
Proof.
  intros Fx Hx. destruct diff_val as (Ed & Hd). destruct (scale_val x Fx ltac:(lra)) as (_ & -> & _).
  rewrite Hx. rewrite <- Ed. unfold Rdiv. rewrite Rinv_r by lra. now apply rnd_id, format1.
Qed.
End Scale.
(** Scaling again by extremes 0 and 1 changes no value. *)
Lemma scale_again mn mx x : fin64 mn -> fin64 mx -> fin64 x -> val mn = 0 -> val mx = 1 -> 0 <= val x <= 1 ->
  fin64 (scale mn mx x) /\ val (scale mn mx x) = val x.
Proof.
  intros Fn Fm Fx Hn Hm Hx.
  assert (Fd : fin64 (sub64 mx mn)).
  { destruct (sub_rnd mx mn Fm Fn) as (O & V). unfold sub64. apply fin_val_bound; auto. rewrite V, Hm, Hn, Rminus_0_r, (rnd_id 1 format1).
    assert (HB : 2 <= BIG) by (change 2 with (bpow radix2 1); apply bpow_le; lia). rewrite clip_id; lra. }
  destruct (scale_val mn mx Fn Fm ltac:(lra) Fd x Fx ltac:(lra)) as (F & V & _). split; auto.
  rewrite V, Hn, Hm, !Rminus_0_r, (rnd_id 1 format1), (rnd_val x Fx). unfold Rdiv. rewrite Rinv_1, Rmult_1_r. now apply rnd_val.
Qed.

(** ** [normalize]. *)
Open Scope Z_scope.
Definition norm_fun (mn mx x : num F64) : num F64 :=
  if SFeqb (sub64 mx mn) (S754_zero false) then (if SFeqb mx (S754_zero false) then x else S754_zero false) else scale mn mx x.
Theorem normalize_spec (h : heap F64) s b (data : list (num F64)) : 1 <= set_len s -> 1 <= set_count s -> set_buf s = Some b ->
  heap_get F64 h b = Ok data -> set_count s * set_len s <= zlen data -> Forall fin64 data ->
  exists mn mx data', normalize F64 h s = Ok (list_set h b (Some data'), mkSet (Some b) (set_len s) (set_count s) (set_path s) true, (mn, mx)) /\
    ext (seen data (set_count s) (set_len s) (columns_seen (set_count s) (set_len s))) (mn, mx) /\ zlen data' = zlen data /\
    (forall t j x, 0 <= t < set_count s -> 0 <= j < set_len s -> zget data (t * set_len s + j) = Ok x ->
       zget data' (t * set_len s + j) = Ok (norm_fun mn mx x)) /\
    (forall p, set_count s * set_len s <= p -> zget data' p = zget data p).
Proof.
  intros Hl Hc Hb Hh Hz F. unfold normalize. destruct (Z.eqb_spec (set_len s * set_count s) 0); [nia|].
  destruct (Z.ltb_spec (set_len s) 0); [lia|]. rewrite Hb, Hh. cbn [bind].
  destruct (Post_inv _ _ (minmax_spec data (set_count s) (set_len s) Hl ltac:(lia) Hz F)) as ((mn & mx) & E & X).
  change (ninf F64, nninf F64) with (INFP, INFN). rewrite E. cbn [bind].
  change (neqb F64) with SFeqb. change (nsub F64 mx mn) with (sub64 mx mn). change (nzero F64) with (S754_zero false).
  exists mn, mx.
  assert (P : Post (if SFeqb (sub64 mx mn) (S754_zero false)
     then if negb (SFeqb mx (S754_zero false)) then map_data F64 (fun _ => S754_zero false) (set_count s) (set_len s) data else Ok data
     else map_data F64 (fun x => ndiv F64 (nsub F64 x mn) (sub64 mx mn)) (set_count s) (set_len s) data)
    (fun data' => zlen data' = zlen data /\
    (forall t j x, 0 <= t < set_count s -> 0 <= j < set_len s -> zget data (t * set_len s + j) = Ok x ->
       zget data' (t * set_len s + j) = Ok (norm_fun mn mx x)) /\
    (forall p, set_count s * set_len s <= p -> zget data' p = zget data p))).
  { unfold norm_fun. destruct (SFeqb (sub64 mx mn) (S754_zero false)).
    - destruct (SFeqb mx (S754_zero false)); cbn [negb].
      + apply Post_Ok. auto.
      + exact (map_data_spec F64 (fun _ => S754_zero false) (set_count s) (set_len s) data ltac:(lia) ltac:(lia) Hz).
    - exact (map_data_spec F64 (fun x => ndiv F64 (nsub F64 x mn) (sub64 mx mn)) (set_count s) (set_len s) data ltac:(lia) ltac:(lia) Hz). }
  destruct (Post_inv _ _ P) as (data' & E' & Q1 & Q2 & Q3). exists data'. rewrite E'. cbn [bind]. auto.
Qed.
