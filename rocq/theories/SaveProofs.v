(** * Proofs about saveDataset: the text that is written and its reading back. *)
From Coq Require Import ZArith Bool Lia Reals Lra SpecFloat Ascii String List.
From Flocq Require Import Core Relative BinarySingleNaN.
From Verif Require Import Outcome Num TimeSeries Text Dataset Groups Api F64Base FileSpec LoadProofs DecSpec DecProofs PrintProofs GroupSpec DataProofs Metric.
Import ListNotations.
Open Scope Z_scope.

Section Save.
Context (N : NumOps) (IO : NumIO N).
Local Notation T := (num N).

(** One line: every value followed by the separator. *)
Definition save_line (c : ascii) (r : list T) : text := flat_map (fun x => io_print IO 6 x ++ [c]) r.
Definition save_text (c : ascii) (rows : list (list T)) : text := flat_map (fun r => save_line c r ++ [nl]) rows.

Lemma flat_map_snoc {A B} (f : A -> list B) l x : flat_map f (l ++ [x]) = flat_map f l ++ f x.
Proof. rewrite flat_map_app. cbn. now rewrite app_nil_r. Qed.

Lemma save_row (o : outcome (list T)) data len i c out0 : o = Ok data -> 0 <= i -> 0 <= len -> (i + 1) * len <= zlen data ->
  Post (for_ 0 len (fun j out => d <- o ;; x <- zget d (i * len + j) ;; Ok (out ++ io_print IO 6 x ++ [c])) out0)
    (fun out => exists r, zlen r = len /\ out = out0 ++ save_line c r /\ forall j, 0 <= j < len -> zget r j = zget data (i * len + j)).
Proof.
  intros -> Hi Hl Hd. cbn [bind]. eapply Post_conseq.
  - apply (for_rule (fun k out => exists r, zlen r = k /\ out = out0 ++ save_line c r /\ forall j, 0 <= j < k -> zget r j = zget data (i * len + j))).
    + exists []. split; [reflexivity|]. split; [now rewrite app_nil_r|]. intros; lia.
    + intros k out Hk (r & L & -> & G). destruct (zget_Ok data (i * len + k) ltac:(nia)) as (x & Hx). rewrite Hx. cbn [bind].
      exists (r ++ [x]). split; [rewrite zlen_app, L; reflexivity|]. split. { unfold save_line. rewrite flat_map_snoc. now rewrite <- !app_assoc. }
      intros j Hj. destruct (Z.eq_dec j k) as [->|Hne].
      * rewrite zget_app_r by lia. rewrite L, Z.sub_diag, Hx. reflexivity.
      * rewrite zget_app_l by lia. apply G. lia.
  - rewrite Z.max_r by lia. auto.
Qed.

Lemma saveData_spec h s b data c : set_buf s = Some b -> heap_get N h b = Ok data -> 0 <= set_count s -> 0 <= set_len s ->
  set_count s * set_len s <= zlen data ->
  exists rows, saveData N IO h s c = Ok (save_text c rows) /\ zlen rows = set_count s /\
    forall i r, zget rows i = Ok r -> zlen r = set_len s /\ forall j, 0 <= j < set_len s -> zget r j = zget data (i * set_len s + j).
Proof.
  intros Hb Hh Hc Hl Hd. unfold saveData.
  set (J := fun k out => exists rows, out = save_text c rows /\ zlen rows = k /\
    forall i r, zget rows i = Ok r -> zlen r = set_len s /\ forall j, 0 <= j < set_len s -> zget r j = zget data (i * set_len s + j)).
  match goal with |- exists rows, ?M = _ /\ _ => assert (P : Post M (J (Z.max 0 (set_count s)))) end.
  { apply (for_rule J).
    - exists []. split; [reflexivity|]. split; [reflexivity|]. intros i r H. apply zget_inv in H. unfold zlen in H. cbn in H. lia.
    - intros k out Hk (rows & -> & L & G). apply Post_bind. eapply Post_conseq.
      + apply (save_row _ data); try lia; [apply (set_data_Ok N _ _ _ _ Hb Hh)|nia].
      + intros out (r & Lr & -> & Gr). exists (rows ++ [r]). split. { unfold save_text. rewrite flat_map_snoc. now rewrite <- app_assoc. }
        split; [rewrite zlen_app, L; reflexivity|]. intros i r' H. pose proof (zget_inv _ _ _ H) as (Hi & _). rewrite zlen_app in Hi. unfold zlen at 2 in Hi. cbn in Hi.
        destruct (Z.eq_dec i k) as [->|Hne].
        * rewrite zget_app_r in H by lia. rewrite L, Z.sub_diag in H. injection H as <-. auto.
        * rewrite zget_app_l in H by lia. auto. }
  rewrite Z.max_r in P by lia. destruct (Post_inv _ _ P) as (out & E & rows & -> & L & G). exists rows. auto.
Qed.

(** The saved text is a table of the printed values. *)
Definition plain (c : ascii) (seps : text) (x : T) : Prop :=
  io_print IO 6 x <> [] /\ Forall (fun k => ~ In k seps) (io_print IO 6 x) /\ ~ In nl (io_print IO 6 x).

Lemma save_table c seps rows : c <> nl -> In c seps -> Forall (Forall (plain c seps)) rows -> forall m, m <= 0 ->
  table seps m (save_text c rows) (map (map (io_print IO 6)) rows).
Proof.
  intros Hc Hs Hp m Hm. exists (map (save_line c) rows). unfold rows_read. rewrite (proj2 (Z.leb_le m 0)) by auto. split.
  - unfold save_text. induction Hp as [|r rows Hr _ IH]; [constructor|]. cbn [flat_map map]. rewrite <- app_assoc. cbn [app]. constructor; [|exact IH].
    clear IH. induction Hr as [|x r (_ & _ & Hx) _ IH]; [auto|]. cbn. rewrite !in_app_iff. cbn. intros [[H|[H|[]]]|H]; auto.
  - induction Hp as [|r rows Hr _ IH]; [constructor|]. cbn [map]. constructor; auto. clear IH.
    induction Hr as [|x r (H1 & H2 & _) _ IH]; [constructor; constructor|]. cbn [map save_line flat_map]. rewrite <- app_assoc. cbn [app].
    apply (lo_tok seps []); auto.
    + right. eauto.
    + clear - IH Hs. fold (save_line c r). remember (map (io_print IO 6) r) as toks. clear Heqtoks. inversion IH as [s F E1 E2|s tok rest toks' F H1 H2 H3 H4 E1 E2].
      * apply (lo_end seps (c :: save_line c r)). constructor; auto. 
      * apply (lo_tok seps (c :: s)); auto.
Qed.
End Save.


Lemma val_zero x : fin64 x -> val x = 0%R -> exists s, x = S754_zero s.
Proof.
  intros (V & F) H. destruct x as [s|s| |s m e]; try contradiction; eauto. exfalso. cbn [val] in H.
  apply eq_0_F2R in H. cbn in H. destruct s; discriminate.
Qed.

Theorem read_printed P x r : 1 <= P -> fin64 x -> val x = 0%R \/ in_range (round10 P (val x)) -> stops r ->
  exists y, stod (print_g P x ++ r) = Ok y /\ fin64 y /\ val y = rnd (round10 P (val x)) /\ sign_SF y = sign_SF x.
Proof.
  intros HP F H Hr. destruct (print_g_spec P x HP F) as (m & e & Ht & Hm & Hv).
  assert (C : m = 0 \/ in_range (dec_real (sign_SF x) m e)).
  { rewrite Hv. destruct H as [H|H]; auto. left. apply val_zero in H as (s & ->); auto. }
  exists (lit_value (sign_SF x) (LDec (Z.to_N m) e)). split; [now apply stod_dec|].
  destruct (Z.eq_dec m 0) as [->|Hz].
  - cbn [Z.to_N]. rewrite lit_zero. destruct x; try lia; try (destruct F as (_ & []); fail). cbn [sign_SF]. split; [split; [reflexivity|exact I]|]. split; [|reflexivity].
    cbn [val]. unfold round10, rnd. now rewrite !round_0 by typeclasses eauto.
  - assert (0 < m) by (destruct x; try lia; destruct F as (_ & [])). destruct C as [C|(_ & C)]; [lia|].
    destruct (lit_finite (sign_SF x) m e ltac:(auto) C) as (F1 & F2). destruct (lit_rnd (sign_SF x) m e ltac:(auto)) as (_ & S). rewrite Hv in F2. auto.
Qed.

(** Which doubles can be saved and loaded: 0 and everything from 2^-1021. *)
Definition DMAX6 : R := IZR (179769 * 10 ^ 303).
Lemma round10_6_max v : (0 <= v < BIG)%R -> (round10 6 v <= DMAX6)%R.
Proof.
  intros (H0 & H1). unfold round10. assert (Hp : Prec_gt_0 6) by reflexivity.
  assert (E : DMAX6 = F2R (Float radix10 179769 303)).
  { unfold DMAX6, F2R. cbn [Fnum Fexp]. rewrite mult_IZR, bpow10_Z by lia. reflexivity. }
  assert (G : generic_format radix10 (FLX_exp 6) DMAX6).
  { rewrite E. apply generic_format_FLX. exists (Float radix10 179769 303); [reflexivity|]. cbn. lia. }
  apply round_N_le_midp; auto; try typeclasses eauto.
  assert (Hm : mag radix10 DMAX6 = 309%Z :> Z).
  { apply mag_unique. rewrite Rabs_pos_eq by (apply IZR_le; lia). split.
    - rewrite bpow10_Z by lia. apply IZR_le. vm_compute. discriminate.
    - rewrite bpow10_Z by lia. apply IZR_lt. vm_compute. reflexivity. }
  rewrite succ_eq_pos by (apply IZR_le; lia). rewrite ulp_neq_0 by (apply IZR_neq; lia). unfold cexp, FLX_exp. rewrite Hm.
  rewrite bpow10_Z by lia.
  apply Rlt_le_trans with (1 := H1). unfold BIG. change (bpow radix2 1024) with (IZR (2 ^ 1024)). unfold DMAX6. rewrite <- !plus_IZR.
  apply Rmult_le_reg_r with 2%R; [lra|]. unfold Rdiv. rewrite Rmult_assoc, Rinv_l, Rmult_1_r by lra. rewrite <- mult_IZR. apply IZR_le. vm_compute. discriminate.
Qed.
Lemma rnd_DMAX6 r : (0 <= r <= DMAX6)%R -> (Rabs (rnd r) < BIG)%R.
Proof.
  intros (H0 & H1). assert (F : fin64 (max_finite false)) by (split; [vm_compute; reflexivity|exact I]).
  assert (R : (rnd r <= val (max_finite false))%R).
  { rewrite <- (rnd_val (max_finite false)) by auto. apply rnd_le. apply Rle_trans with (1 := H1). cbn [val max_finite cond_Zopp]. unfold F2R. cbn [Fnum Fexp].
    change (bpow radix2 971) with (IZR (2 ^ 971)). rewrite <- mult_IZR. apply IZR_le. vm_compute. discriminate. }
  pose proof (val_fin_bound _ F). pose proof (rnd_le 0 r H0) as R0. rewrite rnd_0 in R0. rewrite Rabs_pos_eq by lra. lra.
Qed.
Lemma in_range_opp r : in_range r -> in_range (- r).
Proof. intros (H1 & H2). split; [now rewrite Rabs_Ropp|]. unfold rnd. rewrite round_NE_opp, Rabs_Ropp. exact H2. Qed.
Theorem savable_range x : fin64 x -> (bpow radix2 (-1021) <= Rabs (val x))%R -> in_range (round10 6 (val x)).
Proof.
  intros F Hb. assert (Hp : Prec_gt_0 6) by reflexivity.
  assert (P : forall v, (0 <= v < BIG)%R -> (bpow radix2 (-1021) <= v)%R -> in_range (round10 6 v)).
  { intros v Hv Hl. assert (H0 : (0 <= round10 6 v)%R) by (unfold round10; apply round_ge_generic; [typeclasses eauto|typeclasses eauto|apply generic_format_0|lra]).
    split; [|apply rnd_DMAX6; split; auto; now apply round10_6_max].
    rewrite Rabs_pos_eq by auto. pose proof (relative_error_N_FLX radix10 6 Hp (fun x => negb (Z.even x)) v) as E. fold (round10 6 v) in E.
    change (round radix10 (FLX_exp 6) _ v) with (round10 6 v) in E.
    rewrite (Rabs_pos_eq v) in E by lra. apply Rabs_le_inv in E.
    replace (bpow radix2 (-1021)) with (2 * bpow radix2 (-1022))%R in Hl by (change (-1021)%Z with (1 + (-1022))%Z; rewrite bpow_plus; reflexivity).
    change (bpow radix10 (- (6) + 1)) with (/ IZR (10 ^ 5))%R in E. cbn in E. lra. }
  pose proof (val_fin_bound x F). destruct (Rle_or_lt 0 (val x)) as [H0|H0].
  - rewrite Rabs_pos_eq in Hb by auto. apply P; auto; lra.
  - rewrite Rabs_left in Hb by auto. replace (val x) with (- - val x)%R by ring. rewrite round10_opp. apply in_range_opp, P; auto; lra.
Qed.

(** ** Printing a value that was printed and read before gives the same text. *)
Lemma dec_lt P q X q' X' : 1 <= P -> 10 ^ (P - 1) <= q < 10 ^ P -> 10 ^ (P - 1) <= q' < 10 ^ P -> X < X' ->
  (IZR q * bpow radix10 (X - (P - 1)) < IZR q' * bpow radix10 (X' - (P - 1)))%R.
Proof.
  intros HP (_ & Hq) (Hq' & _) HX. apply IZR_lt in Hq. apply IZR_le in Hq'. rewrite <- bpow10_Z in Hq, Hq' by lia.
  pose proof (bpow_gt_0 radix10 (X - (P - 1))). pose proof (bpow_gt_0 radix10 (X' - (P - 1))).
  apply Rlt_le_trans with (bpow radix10 P * bpow radix10 (X - (P - 1)))%R; [nra|].
  apply Rle_trans with (bpow radix10 (P - 1) * bpow radix10 (X' - (P - 1)))%R; [|nra]. rewrite <- !bpow_plus. apply bpow_le. lia.
Qed.
Lemma dec_unique P q X q' X' : 1 <= P -> 10 ^ (P - 1) <= q < 10 ^ P -> 10 ^ (P - 1) <= q' < 10 ^ P ->
  (IZR q * bpow radix10 (X - (P - 1)))%R = (IZR q' * bpow radix10 (X' - (P - 1)))%R -> q = q' /\ X = X'.
Proof.
  intros HP Hq Hq' E. destruct (Z.lt_trichotomy X X') as [H|[<-|H]].
  - pose proof (dec_lt P q X q' X' HP Hq Hq' H). lra.
  - split; auto. apply Rmult_eq_reg_r in E; [now apply eq_IZR|]. apply Rgt_not_eq, bpow_gt_0.
  - pose proof (dec_lt P q' X' q X HP Hq' Hq H). lra.
Qed.
Lemma print_g_same P x y : 1 <= P -> fin64 x -> fin64 y -> sign_SF x = sign_SF y -> (val x = 0%R <-> val y = 0%R) -> round10 P (val x) = round10 P (val y) ->
  print_g P x = print_g P y.
Proof.
  intros HP Fx Fy Es Ez Er. destruct (Req_dec (val x) 0) as [H|H].
  - apply Ez in H as H'. apply val_zero in H as (s & ->); auto. apply val_zero in H' as (s' & ->); auto. cbn in *. now subst.
  - assert (H' : val y <> 0%R) by tauto. clear Ez. destruct x as [s|s| |s p e]; try (destruct Fx as (_ & [])); try (exfalso; apply H; reflexivity).
    destruct y as [s'|s'| |s' p' e']; try (destruct Fy as (_ & [])); try (exfalso; apply H'; reflexivity). cbn [sign_SF] in Es. subst s'.
    cbn [val] in Er. rewrite !F2R_cond_Zopp in Er. cbn [print_g].
    pose proof (frac_val p e) as Fv. destruct (fin_frac p e) as [n d]. destruct Fv as (Hn & Hd & Ev). rewrite <- Ev in Er.
    pose proof (frac_val p' e') as Fv. destruct (fin_frac p' e') as [n' d']. destruct Fv as (Hn' & Hd' & Ev'). rewrite <- Ev' in Er.
    pose proof (round_dec_spec P n d HP Hn Hd) as R. destruct (round_dec P n d) as [q X]. destruct R as (Hq & R).
    pose proof (round_dec_spec P n' d' HP Hn' Hd') as R'. destruct (round_dec P n' d') as [q' X']. destruct R' as (Hq' & R').
    assert (E : round10 P (IZR n / IZR d) = round10 P (IZR n' / IZR d')).
    { destruct s; cbn [cond_Ropp] in Er; [|exact Er]. rewrite !round10_opp in Er. apply Ropp_eq_compat in Er. now rewrite !Ropp_involutive in Er. }
    rewrite <- R, <- R' in E. destruct (dec_unique P q X q' X' HP Hq Hq' E) as (-> & ->). reflexivity.
Qed.

(** Six digits survive rounding to a double. *)
Lemma round10_rnd d : generic_format radix10 (FLX_exp 6) d -> (bpow radix2 (-1022) <= Rabs d)%R -> round10 6 (rnd d) = d.
Proof.
  assert (Hp : Prec_gt_0 6) by reflexivity.
  assert (P : forall d, generic_format radix10 (FLX_exp 6) d -> (bpow radix2 (-1022) <= d)%R -> round10 6 (rnd d) = d).
  { clear d. intros d G Hd. assert (H0 : (0 < d)%R) by (pose proof (bpow_gt_0 radix2 (-1022)); lra).
    pose proof (relative_error_N_FLT radix2 (-1074) 53 eq_refl (fun x => negb (Z.even x)) d) as E. rewrite Rabs_pos_eq with (x := d) in E by lra. specialize (E Hd).
    change (round radix2 (FLT_exp (-1074) 53) _ d) with (rnd d) in E. apply Rabs_le_inv in E. change (bpow radix2 (- (53) + 1)) with (/ IZR (2 ^ 52))%R in E.
    assert (Hu : (d * / 1000000 < bpow radix10 (mag radix10 d - 6))%R).
    { destruct (mag radix10 d) as (k & Hk). cbn [mag_val]. specialize (Hk ltac:(lra)). rewrite Rabs_pos_eq in Hk by lra. change (k - 6) with (k + (-6)). rewrite bpow_plus.
      change (bpow radix10 (-6)) with (/ IZR 1000000)%R. apply Rmult_lt_compat_r; [|apply Hk]. apply Rinv_0_lt_compat. lra. }
    assert (U : ulp radix10 (FLX_exp 6) d = bpow radix10 (mag radix10 d - 6)) by (rewrite ulp_neq_0 by lra; reflexivity).
    apply Rle_antisym.
    - unfold round10. apply round_N_le_midp; auto; try typeclasses eauto. rewrite succ_eq_pos by lra. rewrite U. cbn in E. lra.
    - unfold round10. apply round_N_ge_midp; auto; try typeclasses eauto. rewrite pred_eq_pos by lra. unfold pred_pos.
      destruct (Req_bool_spec d (bpow radix10 (mag radix10 d - 1))) as [Eb|_]; [|rewrite U; cbn in E; lra].
      unfold FLX_exp. assert (E7 : (bpow radix10 (mag radix10 d - 1 - 6) = d * / 1000000)%R). { transitivity (bpow radix10 (mag radix10 d - 1) * / 1000000)%R; [unfold Z.sub at 1; rewrite bpow_plus; reflexivity|]. now rewrite <- Eb. }
      rewrite E7. cbn in E. lra. }
  intros G Hb. destruct (Rle_or_lt 0 d) as [H|H].
  - rewrite Rabs_pos_eq in Hb by auto. auto.
  - rewrite Rabs_left in Hb by auto. replace d with (- - d)%R at 1 by ring. rewrite rnd_opp, round10_opp, P; auto; [ring|]. now apply generic_format_opp.
Qed.
Lemma print_again x y : fin64 x -> fin64 y -> val x = 0%R \/ in_range (round10 6 (val x)) -> val y = rnd (round10 6 (val x)) -> sign_SF y = sign_SF x ->
  print_g 6 y = print_g 6 x.
Proof.
  intros Fx Fy H Ey Es. assert (Hp : Prec_gt_0 6) by reflexivity. apply print_g_same; auto; try lia.
  - rewrite Ey. destruct H as [H|(H & _)].
    + rewrite H. unfold round10. rewrite round_0 by typeclasses eauto. rewrite rnd_0. tauto.
    + split; intros E.
      * exfalso. assert (B : generic_format radix2 fexp64 (bpow radix2 (-1022))) by (apply generic_format_bpow; vm_compute; discriminate).
        set (d := round10 6 (val x)) in *. pose proof (bpow_gt_0 radix2 (-1022)). destruct (Rle_or_lt 0 d) as [S|S].
        -- rewrite Rabs_pos_eq in H by auto. apply rnd_le in H. rewrite (rnd_id _ B) in H. lra.
        -- rewrite Rabs_left in H by auto. apply rnd_le in H. rewrite (rnd_id _ B), rnd_opp in H. lra.
      * rewrite E. unfold round10. rewrite round_0 by typeclasses eauto. apply rnd_0.
  - rewrite Ey. destruct H as [H|(H & _)].
    + rewrite H. unfold round10 at 2 3. rewrite round_0 by typeclasses eauto. rewrite rnd_0. unfold round10. apply round_0. typeclasses eauto.
    + apply round10_rnd; auto. apply generic_format_round; typeclasses eauto.
Qed.
