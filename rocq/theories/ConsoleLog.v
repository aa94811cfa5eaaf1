(** * The text of successful commands and the log of a grouping. *)
From Coq Require Import ZArith Bool Lia Ascii String List.
From Verif Require Import Outcome Num Lemire Distance TimeSeries Text Dataset Groups Api DecSpec NumSpec FileSpec DecProofs LoadProofs StreamProofs PrintProofs GroupSpec GroupFileProofs SessionProofs ApiProofs LifeProofs Cli CliSpec CliProofs Console ConsoleSpec ConsoleProofs ConsoleLines.
Import ListNotations.
Open Scope Z_scope.

(** ** Increasing lists *)
Lemma increasing_nil : increasing [].
Proof. intros i j x y _ H. now destruct i. Qed.
Lemma increasing_cons a l : (forall z, In z l -> a < z) -> increasing l -> increasing (a :: l).
Proof.
  intros H I i j x y L X Y. destruct j as [|j]; [lia|]. cbn in Y. destruct i as [|i]; cbn in X.
  - injection X as <-. apply H. eapply nth_error_In; eauto.
  - apply (I i j x y); auto. lia.
Qed.
Definition listed (f : Z -> bool) (a n : nat) : list Z := filter f (map Z.of_nat (seq a n)).
Lemma listed_in f n : forall a z, In z (listed f a n) <-> Z.of_nat a <= z < Z.of_nat a + Z.of_nat n /\ f z = true.
Proof.
  intros a z. unfold listed. rewrite filter_In, in_map_iff. split.
  - intros ((x & <- & Hx) & F). apply in_seq in Hx. split; [lia|auto].
  - intros (H & F). split; [|auto]. exists (Z.to_nat z). split; [lia|]. apply in_seq. lia.
Qed.
Lemma listed_increasing f n : forall a, increasing (listed f a n).
Proof.
  induction n as [|n IH]; intros a; [apply increasing_nil|]. unfold listed. cbn [seq map filter]. fold (listed f (S a) n). destruct (f (Z.of_nat a)); [|apply IH].
  apply increasing_cons; [|apply IH]. intros z Hz. apply listed_in in Hz. lia.
Qed.
Lemma listed_concat {A} (f : Z -> bool) (g : Z -> list A) n : forall a,
  flat_map (fun c => let z := Z.of_nat c in if f z then g z else []) (seq a n) = concat (map g (listed f a n)).
Proof.
  induction n as [|n IH]; intros a; [reflexivity|]. unfold listed. cbn [seq flat_map map filter]. fold (listed f (S a) n). cbn zeta. rewrite IH. destruct (f (Z.of_nat a)); reflexivity.
Qed.

Lemma increasing_NoDup l : increasing l -> NoDup l.
Proof.
  intros H. apply NoDup_nth_error. intros i j L E. destruct (nth_error l i) as [x|] eqn:X; [|apply nth_error_None in X; lia]. symmetry in E.
  destruct (Nat.lt_total i j) as [Hl|[Hl|Hl]]; [specialize (H i j x x Hl X E); lia|auto|specialize (H j i x x Hl E X); lia].
Qed.
(** The multiples of a fifth. *)
Lemma fifths_number total done : 5 <= total -> increasing done -> (forall c, In c done <-> 1 <= c <= total /\ (total / 5 | c)) -> 5 <= zlen done <= 9.
Proof.
  intros H I M. set (w := total / 5) in *. assert (W : 1 <= w) by (apply Z.div_le_lower_bound; lia).
  assert (T : 5 * w <= total < 5 * w + 5) by (unfold w; pose proof (Z.div_mod total 5 ltac:(lia)); pose proof (Z.mod_pos_bound total 5 ltac:(lia)); lia).
  set (all := map (fun k => Z.of_nat k * w) (seq 1 (Z.to_nat (total / w)))).
  assert (Q : total / w * w <= total < total / w * w + w) by (pose proof (Z.div_mod total w ltac:(lia)); pose proof (Z.mod_pos_bound total w ltac:(lia)); lia).
  assert (N1 : 5 <= total / w <= 9) by nia.
  assert (A : forall c, In c all <-> In c done).
  { intros c. rewrite M. unfold all. rewrite in_map_iff. split.
    - intros (k & <- & Hk). apply in_seq in Hk. split; [nia|]. exists (Z.of_nat k). reflexivity.
    - intros (R & (q & ->)). exists (Z.to_nat q). assert (1 <= q) by nia. split; [lia|]. apply in_seq. assert (q <= total / w) by (apply Z.div_le_lower_bound; lia). lia. }
  assert (Na : NoDup all). { unfold all. apply FinFun.Injective_map_NoDup; [|apply seq_NoDup]. intros x y E. nia. }
  assert (La : zlen all = total / w) by (unfold zlen, all; rewrite map_length, seq_length; lia).
  assert (L1 : zlen done <= zlen all) by (unfold zlen; apply inj_le, NoDup_incl_length; [now apply increasing_NoDup|intros c; apply A]).
  assert (L2 : zlen all <= zlen done) by (unfold zlen; apply inj_le, NoDup_incl_length; [auto|intros c; apply A]).
  lia.
Qed.

(** ** The log *)
Lemma progress_length_text count len l : progress_text l ((len - l + 1) * count) (progress_length count len l).
Proof.
  unfold progress_length. set (total := (len - l + 1) * count) in *. cbn zeta.
  exists (listed (fun c => Z.rem c (Z.quot total 5) =? 0) 1 (Z.to_nat total)). split; [apply listed_increasing|]. split.
  - intros c. rewrite listed_in. destruct (Z.ltb_spec total 1) as [Hn|H]; [replace (Z.to_nat total) with 0%nat by lia; lia|]. rewrite Z2Nat.id by lia. rewrite Z.quot_div_nonneg by lia. split.
    + intros (R & E). split; [lia|]. apply Z.eqb_eq in E. destruct (Z.eq_dec (total / 5) 0) as [E0|E0]; [rewrite E0, Z.rem_0_r_ext in E by reflexivity; lia|].
      now apply Z.rem_divide in E.
    + intros (R & D). split; [lia|]. apply Z.eqb_eq. destruct (Z.eq_dec (total / 5) 0) as [E0|E0]; [rewrite E0 in D; destruct D as (q & D); lia|]. now apply Z.rem_divide.
  - match goal with |- ?a ++ ?b ++ ?c ++ ?d = _ => replace (a ++ b ++ c ++ d) with ((a ++ b ++ c) ++ d) by now rewrite <- !app_assoc end. f_equal.
    { unfold line_text, endl. cbn [concat]. rewrite app_nil_r, <- app_assoc. reflexivity. }
    etransitivity; [|apply (listed_concat (A := ascii) (fun c => Z.rem c (Z.quot total 5) =? 0))]. destruct (Z.ltb_spec total 1) as [Hn|H]; [now replace (Z.to_nat total) with 0%nat by lia|]. apply flat_map_ext. intros c. unfold progress_line. cbn zeta. destruct (_ =? 0) eqn:E; [|reflexivity].
    unfold line_text, endl. cbn [concat]. rewrite !app_nil_r. rewrite <- !app_assoc.
    rewrite Z.quot_div_nonneg by lia. reflexivity.
Qed.
Section Log.
Context (N : NumOps) (IO : NumIO N) (writable : string -> bool).
Local Notation con := (con N).
Local Notation kc := (k_cli N).
Local Notation step := (step N IO writable).

Lemma progress_log clock logged d :
  log_text (set_count (ds_set N d)) (set_len (ds_set N d)) (fun l => clock l = true \/ (logged = false /\ l = 2)) (progress N clock logged d).
Proof.
  set (f := fun l => clock l || (negb logged && (l =? 2))). set (ls := listed f 2 (Z.to_nat (set_len (ds_set N d) - 1))).
  assert (R : forall l, In l ls <-> 2 <= l <= set_len (ds_set N d) /\ (clock l = true \/ (logged = false /\ l = 2))).
  { intros l. unfold ls. rewrite listed_in. unfold f. rewrite orb_true_iff, andb_true_iff, negb_true_iff, Z.eqb_eq. split; intros (A & B); (split; [lia|auto]). }
  exists ls, (map (progress_length (set_count (ds_set N d)) (set_len (ds_set N d))) ls). split; [apply listed_increasing|]. split; [exact R|]. split.
  - clear R. induction ls as [|l ls' IH]; cbn [map]; constructor; [apply progress_length_text|exact IH].
  - unfold progress. apply (listed_concat (A := ascii) f).
Qed.

Lemma answers_text p k o s v : step (c_api N (kc k)) o = Done N s v -> (exists ws, says N IO ws o) -> answer_text N IO p o v (report N IO p o v).
Proof.
  intros E (ws & S).
  assert (Sh : match o with OpAllInfo _ => True | OpLoad _ _ _ _ _ | OpPAA _ _ _ => exists i, v = VInfo N i | OpNormalize _ _ => exists a b, v = VPair N a b
     | OpGroup _ _ _ _ | OpLoadGroup _ _ _ => exists n, v = VInt N n | OpMatch _ _ _ _ _ _ => exists c, v = VCand N c
     | OpSave _ _ _ _ | OpUnload _ _ | OpSaveGroup _ _ _ _ => v = VUnit N | _ => True end).
  { destruct o; cbn [Api.step] in E; try exact I.
    - apply load_inv in E as (d & _ & _ & _ & _ & (_ & C & _) & _ & Ep & -> & _). eauto.
    - unfold api_save in E. apply lift_done in E as (d & _ & E). destruct (negb _); [discriminate|]. apply lift_done in E as (t & _ & E). now injection E as _ <-.
    - unfold api_unload in E. apply lift_done in E as (d & _ & E). now injection E as _ <-.
    - unfold api_normalize in E. apply lift_done in E as (d & C & E). apply lift_done in E as (((h & s0) & (mn & mx)) & En & E). injection E as _ <-. eauto.
    - unfold api_group in E. apply lift_done in E as (d & C & E). destruct (negb _); [discriminate|]. cbn zeta in E.
      destruct (global_group N _ _ _ _ _ _) as [(gs & n)|x| |]; try discriminate. injection E as _ <-. eauto.
    - unfold api_saveGroup in E. apply lift_done in E as (d & _ & E). destruct (ds_groups N d); [|discriminate].
      destruct (negb _); [discriminate|]. apply lift_done in E as (thr & _ & E). apply lift_done in E as (t & _ & E). now injection E as _ <-.
    - unfold api_loadGroup in E. apply lift_done in E as (d & C & E). destruct (st_files N _ path); [|discriminate].
      apply lift_done in E as ((fin & thr) & _ & E). apply lift_done in E as ((gs & r) & _ & E). destruct r; [|discriminate]. injection E as _ <-. eauto.
    - apply match_inv in E as (d & gs & gs' & c & dq & q & _ & _ & _ & _ & _ & _ & ->). eauto.
    - unfold api_PAA in E. apply lift_done in E as (d & C & E). apply lift_done in E as ((h & s0) & En & E). injection E as <- <-. eauto. }
  inversion S; subst; clear S; try (destruct Sh as (? & ? & ->)); try (destruct Sh as (? & ->)); try subst v; cbn [report].
  all: try (match goal with |- answer_text _ _ _ _ _ ?t => match goal with |- answer_text ?a ?b ?c ?d ?e _ =>
      let H := fresh in eassert (H : answer_text a b c d e _) by constructor; match type of H with answer_text _ _ _ _ _ ?u => replace t with u; [exact H|] end end end;
      unfold show_info, info_text, show_match, match_text, line_text, endl; cbn [concat]; rewrite ?app_nil_r, <- ?app_assoc; reflexivity).
  cbn [Api.step] in E. injection E as _ <-. constructor.
Qed.
Lemma library_while s o s' v : step s o = Done N s' v -> while_text N s o (library N IO s o).
Proof.
  intros E. destruct o; cbn [while_text library]; try reflexivity; cbn [Api.step] in E.
  - unfold api_group in E. apply lift_done in E as (d & C & E). rewrite C. destruct (isLoaded (ds_set N d)) eqn:L; [|discriminate]. exists d.
    split; [apply check_iff; exact C|]. apply progress_log.
  - unfold api_loadGroup in E. apply lift_done in E as (d & C & E). rewrite C. destruct (st_files N s path) as [t|]; [|discriminate].
    apply lift_done in E as ((fin & thr) & -> & _). reflexivity.
Qed.
End Log.
