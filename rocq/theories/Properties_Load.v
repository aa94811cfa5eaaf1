(** * Properties C36, C37, C38: loading text tables.

    [table], [parses] and [stod_ok] are defined in FileSpec.v, [dataset] and [cell] in GroupSpec.v.  The theorems hold
    for any arithmetic and any conversion [IO] from text to numbers that gives a value or a std::logic_error. *)
From Coq Require Import ZArith Bool Lia SpecFloat Ascii String List.
From Verif Require Import Outcome Num TimeSeries Text Dataset Groups Api FileSpec LoadProofs GroupSpec GlobalGroup SessionProofs Properties_Api.
Import ListNotations.
Open Scope Z_scope.

Section Load.
Context (N : NumOps) (IO : NumIO N) (writable : string -> bool).
Local Notation st := (st N).
Local Notation step := (step N IO writable).

(** Every text has exactly one table. *)
Theorem C36_table_total : forall seps m t, exists rows, table seps m t rows /\ forall rows', table seps m t rows' -> rows' = rows.
Proof.
  intros seps m t. eexists. split; [apply table_rows; reflexivity|]. intros rows'. apply table_rows.
Qed.

Lemma load_step σ p contents m c seps data cnt len : st_files N σ p = Some contents -> loadData N IO contents m c seps = Ok (data, cnt, len) ->
  exists σ' n d, step σ (OpLoad N p m c seps) = Done N σ' (VInfo N (mkInfo n p cnt len false false)) /\
    checkDatasetIndex N σ' n = Ok d /\ ds_groups N d = None /\ set_path (ds_set N d) = p /\ set_count (ds_set N d) = cnt /\ set_len (ds_set N d) = len /\
    match data with None => set_buf (ds_set N d) = None | Some l => exists b, set_buf (ds_set N d) = Some b /\ heap_get N (st_heap N σ') b = Ok l end.
Proof.
  intros Hf Hl. cbn [Api.step]. destruct (api_load N IO σ p m c seps) as [σ' v|s1 e|u|] eqn:E.
  - apply load_inv in E as (d & contents' & data' & Hf' & Hl' & (_ & C & _ & _ & _ & G & _) & Hn & Hp & -> & Hb).
    rewrite Hf in Hf'. injection Hf' as <-. rewrite Hl in Hl'. injection Hl' as -> -> ->.
    exists σ', (Z.of_nat (first_free N (st_sets N σ))), d. split; [unfold info_of, isGrouped; rewrite G, Hn, Hp; reflexivity|].
    do 5 (split; auto). destruct data' as [l|]; auto. destruct Hb as (Hb & Hh). exists (length (st_heap N σ)). split; auto. rewrite Hh. apply heap_get_alloc.
  - exfalso. revert E. unfold api_load. rewrite Hf, Hl. cbn [lift].
    set (hb := match data with Some l => _ | None => _ end). destruct hb as (h & b).
    set (d := mkDS N (mkSet b len cnt p false) None None). set (n := first_free N (st_sets N σ)).
    set (sets := if (n <? length (st_sets N σ))%nat then _ else _). set (s2 := with_count _ _ _). intros E.
    assert (C : checkDatasetIndex N s2 (Z.of_nat n) = Ok d).
    { apply check_iff. split; [lia|]. rewrite Nat2Z.id. unfold s2. cbn. apply (insert_slot N (st_sets N σ) d 0). }
    unfold getDatasetInfo in E. rewrite C in E. discriminate.
  - exfalso. revert E. unfold api_load. rewrite Hf, Hl. cbn [lift].
    set (hb := match data with Some l => _ | None => _ end). destruct hb as (h & b).
    set (d := mkDS N (mkSet b len cnt p false) None None). set (n := first_free N (st_sets N σ)).
    set (sets := if (n <? length (st_sets N σ))%nat then _ else _). set (s2 := with_count _ _ _). intros E.
    assert (C : checkDatasetIndex N s2 (Z.of_nat n) = Ok d).
    { apply check_iff. split; [lia|]. rewrite Nat2Z.id. unfold s2. cbn. apply (insert_slot N (st_sets N σ) d 0). }
    unfold getDatasetInfo in E. rewrite C in E. discriminate.
  - exfalso. revert E. unfold api_load. rewrite Hf, Hl. cbn [lift].
    set (hb := match data with Some l => _ | None => _ end). destruct hb as (h & b).
    set (d := mkDS N (mkSet b len cnt p false) None None). set (n := first_free N (st_sets N σ)).
    set (sets := if (n <? length (st_sets N σ))%nat then _ else _). set (s2 := with_count _ _ _). intros E.
    assert (C : checkDatasetIndex N s2 (Z.of_nat n) = Ok d).
    { apply check_iff. split; [lia|]. rewrite Nat2Z.id. unfold s2. cbn. apply (insert_slot N (st_sets N σ) d 0). }
    unfold getDatasetInfo in E. rewrite C in E. discriminate.
Qed.

(** ** C36. *)
Theorem C36_load : forall (σ : st) p contents m startCol seps rows cols,
  st_files N σ p = Some contents -> table seps m contents rows -> rows <> [] -> 0 <= startCol ->
  (forall i r, zget rows i = Ok r -> zlen r = cols) ->
  (forall i r j tok, zget rows i = Ok r -> startCol <= j -> zget r j = Ok tok -> parses IO tok) ->
  exists σ' n d data, step σ (OpLoad N p m startCol seps) = Done N σ' (VInfo N (mkInfo n p (zlen rows) (cols - startCol) false false)) /\
    dataset N σ' n d data /\ set_count (ds_set N d) = zlen rows /\ set_len (ds_set N d) = cols - startCol /\ set_path (ds_set N d) = p /\ ds_groups N d = None /\
    forall i r j tok, zget rows i = Ok r -> 0 <= j -> zget r (startCol + j) = Ok tok -> exists v, io_stod IO tok = Ok v /\ cell N d data i j v.
Proof.
  intros σ p contents m startCol seps rows cols Hf Ht Hne Hs Hlen Hpar. apply table_rows in Ht. destruct rows as [|r0 rows]; [congruence|].
  assert (Hc : zlen r0 = cols) by (apply (Hlen 0); reflexivity).
  assert (In_zget : forall r, In r (r0 :: rows) -> exists i, zget (r0 :: rows) i = Ok r).
  { intros r Hr. apply In_nth_error in Hr as (k & Hk). exists (Z.of_nat k). unfold zget. destruct (Z.ltb_spec (Z.of_nat k) 0); [lia|]. rewrite Nat2Z.id, Hk. reflexivity. }
  assert (G : Forall (good_row N IO startCol (zlen r0)) (r0 :: rows)).
  { apply Forall_forall. intros r Hr. apply In_zget in Hr as (i & Hi). split; [rewrite Hc; eauto|]. intros k tok Hk Hsk. apply (Hpar i r k tok); auto. }
  destruct (loadData_ok N IO contents m startCol seps r0 rows Hs (eq_sym Ht) G) as (data & E & L & V).
  destruct (load_step σ p contents m startCol seps _ _ _ Hf E) as (σ' & n & d & Es & C & Hg & Hp & Ec & El & b & Hb & Hh).
  exists σ', n, d, data. rewrite <- Hc. split; [exact Es|]. pose proof (zlen_nonneg (r0 :: rows)). split.
  - split; auto. exists b. rewrite Ec, El, L. repeat split; auto. nia.
  - do 4 (split; auto). intros i r j tok Hi Hj Hk. destruct (V i r Hi (startCol + j) tok Hk ltac:(lia)) as (v & Hv & Hd). exists v. split; auto.
    pose proof (zget_inv _ _ _ Hi) as (Hi0 & _). pose proof (zget_inv _ _ _ Hk) as (Hk0 & _). rewrite (Hlen i r Hi) in Hk0.
    split; [lia|]. split; [lia|]. rewrite El. replace (i * (zlen r0 - startCol) + j) with (i * (zlen r0 - startCol) + (0 + (startCol + j) - startCol)) by lia. exact Hd.
Qed.

(** ** C37. *)
Theorem C37_missing_file : forall (σ : st) p m startCol seps, st_files N σ p = None ->
  exists msg, step σ (OpLoad N p m startCol seps) = Exn N σ (OnexExn msg).
Proof. intros σ p m startCol seps H. cbn. unfold api_load. rewrite H. eauto. Qed.
(** Two rows with different numbers of columns, or a kept column that is not a number. *)
Theorem C37_malformed : forall (σ : st) p contents m startCol seps rows, stod_ok IO ->
  st_files N σ p = Some contents -> table seps m contents rows -> 0 <= startCol ->
  (exists i i' r r', zget rows i = Ok r /\ zget rows i' = Ok r' /\ zlen r <> zlen r') \/
  (exists i r j tok, zget rows i = Ok r /\ startCol <= j /\ zget r j = Ok tok /\ ~ parses IO tok) ->
  exists msg, step σ (OpLoad N p m startCol seps) = Exn N σ (OnexExn msg).
Proof.
  intros σ p contents m startCol seps rows S Hf Ht Hs H. apply table_rows in Ht. destruct rows as [|r0 rows].
  { exfalso. destruct H as [(i & i' & r & r' & H & _)|(i & r & j & tok & H & _)]; apply zget_inv in H as (H & _); cbn in H; lia. }
  destruct (loadData_bad N IO contents m startCol seps r0 rows S Hs (eq_sym Ht)) as (msg & E).
  - apply Exists_exists. destruct H as [(i & i' & r & r' & H1 & H2 & H3)|(i & r & j & tok & H1 & H2 & H3 & H4)].
    + destruct (Z.eq_dec (zlen r) (zlen r0)) as [E|E]; [exists r'|exists r]; (split; [eapply GroupProofs.zget_in; eauto|left; lia]).
    + exists r. split; [eapply GroupProofs.zget_in; eauto|]. right. exists j, tok. auto.
  - exists msg. cbn. unfold api_load. rewrite Hf, E. reflexivity.
Qed.
(** Conversely, with a start column that is not negative, loading throws nothing but OnexException, changes nothing
    when it throws, and is never undefined. *)
Theorem C37_outcomes : forall (σ : st) p m startCol seps, stod_ok IO -> 0 <= startCol ->
  (exists σ' v, step σ (OpLoad N p m startCol seps) = Done N σ' v) \/
  (exists msg, step σ (OpLoad N p m startCol seps) = Exn N σ (OnexExn msg)).
Proof.
  intros σ p m startCol seps S Hs. destruct (st_files N σ p) as [contents|] eqn:Hf; [|right; now apply C37_missing_file].
  destruct (C36_table_total seps m contents) as (rows & Ht & _). pose proof Ht as Ht'. apply table_rows in Ht'.
  destruct rows as [|r0 rows].
  - left. assert (E : loadData N IO contents m startCol seps = Ok (None, 0, -1 - startCol)).
    { apply loadData_empty. destruct (rows_read m (lines contents)); [reflexivity|discriminate]. }
    destruct (load_step σ p contents m startCol seps _ _ _ Hf E) as (σ' & n & d & Es & _). eauto.
  - assert (D : forall rows, Forall (good_row N IO startCol (zlen r0)) rows \/ Exists (bad_row N IO startCol (zlen r0)) rows).
    { clear Ht Ht'. induction rows0 as [|r rows0 [IH|IH]]; auto. destruct (Z.eq_dec (zlen r) (zlen r0)) as [E|E]; [|right; left; left; auto].
      destruct (classic_tok N IO startCol S r 0) as [K|K]; [left; constructor; auto; split; auto|right; left; right; auto]. }
    destruct (D (r0 :: rows)) as [G|B].
    + left. destruct (loadData_ok N IO contents m startCol seps r0 rows Hs (eq_sym Ht') G) as (data & E & _).
      destruct (load_step σ p contents m startCol seps _ _ _ Hf E) as (σ' & n & d & Es & _). eauto.
    + right. destruct (loadData_bad N IO contents m startCol seps r0 rows S Hs (eq_sym Ht') B) as (msg & E). exists msg. cbn. unfold api_load. rewrite Hf, E. reflexivity.
Qed.

(** ** C38. *)
(** A negative start column: out of bounds as soon as there is a column. *)
Theorem C38_negative_start : forall (σ : st) p contents m startCol seps rows cols,
  st_files N σ p = Some contents -> table seps m contents rows -> rows <> [] -> startCol < 0 -> 1 <= cols ->
  (forall i r, zget rows i = Ok r -> zlen r = cols) -> (forall i r j tok, zget rows i = Ok r -> zget r j = Ok tok -> parses IO tok) ->
  step σ (OpLoad N p m startCol seps) = Bad N OutOfBounds.
Proof.
  intros σ p contents m startCol seps rows cols Hf Ht Hne Hs Hc Hlen Hpar. apply table_rows in Ht. destruct rows as [|r0 rows]; [congruence|].
  assert (Hc0 : zlen r0 = cols) by (apply (Hlen 0); reflexivity).
  assert (In_zget : forall r, In r (r0 :: rows) -> exists i, zget (r0 :: rows) i = Ok r).
  { intros r Hr. apply In_nth_error in Hr as (k & Hk). exists (Z.of_nat k). unfold zget. destruct (Z.ltb_spec (Z.of_nat k) 0); [lia|]. rewrite Nat2Z.id, Hk. reflexivity. }
  cbn. unfold api_load. rewrite Hf. rewrite (loadData_neg N IO contents m startCol seps r0 rows Hs (eq_sym Ht)).
  - reflexivity.
  - intros ->. cbn in Hc0. lia.
  - apply Forall_forall. intros r Hr. apply In_zget in Hr as (i & Hi). split; [rewrite Hc0; eauto|]. intros k tok Hk _. apply (Hpar i r k tok); auto.
Qed.
(** A start column beyond the columns: accepted, whatever the columns contain; the item length is negative. *)
Theorem C38_start_beyond : forall (σ : st) p contents m startCol seps rows cols,
  st_files N σ p = Some contents -> table seps m contents rows -> rows <> [] -> cols < startCol ->
  (forall i r, zget rows i = Ok r -> zlen r = cols) ->
  exists σ' n d, step σ (OpLoad N p m startCol seps) = Done N σ' (VInfo N (mkInfo n p (zlen rows) (cols - startCol) false false)) /\
    checkDatasetIndex N σ' n = Ok d /\ set_len (ds_set N d) = cols - startCol /\ set_len (ds_set N d) < 0.
Proof.
  intros σ p contents m startCol seps rows cols Hf Ht Hne Hs Hlen.
  assert (Hc : 0 <= cols). { destruct rows as [|r0 rows]; [congruence|]. rewrite <- (Hlen 0 r0 eq_refl). apply zlen_nonneg. }
  destruct (C36_load σ p contents m startCol seps rows cols Hf Ht Hne ltac:(lia) Hlen) as (σ' & n & d & data & E & (C & _) & _ & L & _).
  - intros i r j tok Hi Hj Hk. apply zget_inv in Hk as (Hk & _). rewrite (Hlen i r Hi) in Hk. lia.
  - exists σ', n, d. rewrite L. repeat split; auto. lia.
Qed.
(** No rows: accepted; the data pointer is null and the item length is -1 - startCol. *)
Theorem C38_empty_file : forall (σ : st) p m startCol seps, st_files N σ p = Some [] ->
  exists σ' n d, step σ (OpLoad N p m startCol seps) = Done N σ' (VInfo N (mkInfo n p 0 (-1 - startCol) false false)) /\
    checkDatasetIndex N σ' n = Ok d /\ set_buf (ds_set N d) = None.
Proof.
  intros σ p m startCol seps Hf.
  destruct (load_step σ p [] m startCol seps None 0 (-1 - startCol) Hf) as (σ' & n & d & E & C & _ & _ & _ & _ & Hb).
  - apply loadData_empty. unfold rows_read. destruct (m <=? 0); [reflexivity|]. now rewrite firstn_nil.
  - exists σ', n, d. auto.
Qed.
(** A negative start column and only blank lines: accepted; the dataset claims values it does not have, and
    normalizing it is undefined. *)
Theorem C38_blank_lines : forall (σ : st) p contents m startCol seps rows,
  st_files N σ p = Some contents -> table seps m contents rows -> rows <> [] -> startCol < 0 -> (forall i r, zget rows i = Ok r -> r = []) ->
  exists σ' n d b, step σ (OpLoad N p m startCol seps) = Done N σ' (VInfo N (mkInfo n p (zlen rows) (- startCol) false false)) /\
    checkDatasetIndex N σ' n = Ok d /\ set_buf (ds_set N d) = Some b /\ heap_get N (st_heap N σ') b = Ok [] /\
    (2 <= - startCol \/ Z.odd (zlen rows) = true -> step σ' (OpNormalize N n) = Bad N OutOfBounds).
Proof.
  intros σ p contents m startCol seps rows Hf Ht Hne Hs Hb. apply table_rows in Ht. destruct rows as [|r0 rows]; [congruence|].
  assert (In_zget : forall r, In r (r0 :: rows) -> exists i, zget (r0 :: rows) i = Ok r).
  { intros r Hr. apply In_nth_error in Hr as (k & Hk). exists (Z.of_nat k). unfold zget. destruct (Z.ltb_spec (Z.of_nat k) 0); [lia|]. rewrite Nat2Z.id, Hk. reflexivity. }
  pose proof (loadData_blank N IO contents m startCol seps r0 rows Hs (eq_sym Ht)) as E.
  destruct (load_step σ p contents m startCol seps _ _ _ Hf (E ltac:(apply Forall_forall; intros r Hr; apply In_zget in Hr as (i & Hi); eauto))) as
    (σ' & n & d & Es & C & _ & _ & Ec & El & b & Hbuf & Hh).
  exists σ', n, d, b. do 4 (split; auto). intros Hodd. cbn. unfold api_normalize. rewrite C. cbn [lift]. unfold normalize. rewrite Ec, El.
  pose proof (zlen_nonneg rows) as Hn. pose proof (zlen_cons r0 rows) as Hzc. set (R := zlen (r0 :: rows)) in *. clearbody R.
  destruct (Z.eqb_spec (- startCol * R) 0); [nia|]. destruct (Z.ltb_spec (- startCol) 0); [lia|].
  rewrite Hbuf, Hh. cbn [bind]. unfold for_. replace (Z.to_nat (R - 0)) with (S (Z.to_nat (R - 1))) by lia. cbn [loop].
  assert (Em : minmax_row N [] (- startCol * R) (- startCol) 0 (ninf N, nninf N) = UB OutOfBounds).
  { unfold minmax_row. destruct (Z.rem (- startCol * R) 2 =? 0) eqn:Ep; cbn [Z.eqb bind]; [|reflexivity].
    assert (H2 : 2 <= - startCol).
    { destruct Hodd as [H2|Ho]; auto. destruct (Z.eq_dec startCol (-1)) as [->|]; [|lia]. exfalso. apply Z.eqb_eq in Ep. change (- -1) with 1 in Ep. rewrite Z.mul_1_l in Ep.
      apply Z.odd_spec in Ho as (k & ->). rewrite Z.rem_mod_nonneg in Ep by lia. rewrite Z.add_comm, Z.mul_comm, Z_mod_plus_full in Ep. discriminate. }
    unfold for_. assert (0 < (- startCol - 0) / 2) by (apply Z.div_str_pos; lia).
    replace (Z.to_nat ((- startCol - 0) / 2 - 0)) with (S (Z.to_nat ((- startCol - 0) / 2 - 1))) by lia. reflexivity. }
  rewrite Em. reflexivity.
Qed.
End Load.

(** The conversion used by the code meets [stod_ok]. *)
Theorem C37_stod_ok : stod_ok F64_IO.
Proof.
  intros t. unfold io_stod, F64_IO, stod. destruct (strtod t) as [[[neg l] r]|]; [|right; eauto]. destruct (lit_erange neg l); [right|left]; eauto.
Qed.

(** ** Cases. *)
Definition ex_table : text := ex_line "id, 1.5;;-2e1 " ++ ex_line ",b 3 0x10" ++ T_ "c 5 7x".
Definition ex_rows : list (list text) := [[T_ "id"; T_ "1.5"; T_ "-2e1"]; [T_ "b"; T_ "3"; T_ "0x10"]; [T_ "c"; T_ "5"; T_ "7x"]].
Definition ex_load_files (p : string) : option text :=
  if String.eqb p "t" then Some ex_table else if String.eqb p "blank" then Some (T_ "  " ++ [nl; nl]) else if String.eqb p "empty" then Some [] else None.
(** Separators space, comma and semicolon: three rows of three columns, the first of which is a name. *)
Example C36_C37_C38_case_table : table (T_ " ,;") 0 ex_table ex_rows /\ table (T_ " ,;") 2 ex_table (firstn 2 ex_rows) /\
  table (T_ " ") 5 (T_ "  " ++ [nl; nl]) [[]; []].
Proof. rewrite !table_rows. vm_compute. auto. Qed.
Definition parsesb (t : text) : bool := match stod t with Ok _ => true | _ => false end.
Lemma parsesb_spec t : parsesb t = true <-> parses F64_IO t.
Proof.
  unfold parsesb, parses. cbn [io_stod F64_IO]. destruct (stod t); split; try congruence; eauto; intros (v & H); discriminate.
Qed.
(** From column 1 on it is a table of numbers, from column 0 on it is not. *)
Example C36_C37_case : (forall i r, zget ex_rows i = Ok r -> zlen r = 3) /\
  (forall i r j tok, zget ex_rows i = Ok r -> 1 <= j -> zget r j = Ok tok -> parses F64_IO tok) /\
  (exists i r j tok, zget ex_rows i = Ok r /\ 0 <= j /\ zget r j = Ok tok /\ ~ parses F64_IO tok).
Proof.
  split; [|split].
  - intros i r H. apply GroupProofs.zget_in in H. cbn in H. decompose [or] H; subst; try reflexivity. contradiction.
  - intros i r j tok H Hj Hk. apply parsesb_spec.
    assert (G : forallb (fun r => forallb parsesb (skipn 1 r)) ex_rows = true) by (vm_compute; reflexivity).
    rewrite forallb_forall in G. specialize (G r (GroupProofs.zget_in _ _ _ H)). rewrite forallb_forall in G. apply G.
    apply zget_inv in Hk as (Hk & Hn). destruct r as [|t r]; [destruct (Z.to_nat j); discriminate|]. cbn [skipn]. destruct (Z.to_nat j) as [|k] eqn:Ej; [lia|].
    cbn [nth_error] in Hn. eapply nth_error_In; eauto.
  - exists 0, [T_ "id"; T_ "1.5"; T_ "-2e1"], 0, (T_ "id"). split; [reflexivity|]. split; [lia|]. split; [reflexivity|]. rewrite <- parsesb_spec. vm_compute. discriminate.
Qed.
(** What loading gives: values from columns 1 and 2; errors and undefined behaviour for other columns. *)
Definition ex_load p m c seps : outcome (Z * Z * list spec_float) :=
  match step F64 F64_IO (fun _ => true) (st_init F64 ex_load_files) (OpLoad F64 p m c (T_ seps)) with
  | Done _ σ (VInfo _ i) => match checkDatasetIndex F64 σ (i_id i) with
      | Ok d => match set_data F64 (st_heap F64 σ) (ds_set F64 d) with Ok l => Ok (i_count i, i_length i, l) | _ => Ok (i_count i, i_length i, []) end
      | _ => NoFuel end
  | Exn _ _ e => Throw e
  | Bad _ u => UB u
  | _ => NoFuel end.
Example C36_C37_C38_case_run :
  ex_load "t" 0 1 " ,;" = Ok (3, 2, [SFdiv prec64 emax64 (f64_ofZ 3) (f64_ofZ 2); f64_ofZ (-20); f64_ofZ 3; f64_ofZ 16; f64_ofZ 5; f64_ofZ 7; S754_zero false; S754_zero false; S754_zero false]) /\
  ex_load "t" 2 1 " ,;" = Ok (2, 2, [SFdiv prec64 emax64 (f64_ofZ 3) (f64_ofZ 2); f64_ofZ (-20); f64_ofZ 3; f64_ofZ 16; S754_zero false; S754_zero false]) /\
  ex_load "t" 0 0 " ,;" = Throw (OnexExn "Dataset file contains unparsable text") /\
  ex_load "t" 0 0 " " = Throw (OnexExn "Dataset file contains unparsable text") /\
  ex_load "t" 0 1 " ," = Throw (OnexExn "File contains time series with inconsistent lengths") /\
  ex_load "u" 0 0 " ," = Throw (OnexExn "Cannot open u") /\
  ex_load "t" 0 5 " ,;" = Ok (3, -2, zrepeat (S754_zero false) 9) /\
  ex_load "empty" 0 0 " ,;" = Ok (0, -1, []) /\ ex_load "blank" 0 (-4) " " = Ok (2, 4, []).
Proof. vm_compute. auto 10. Qed.
Example C38_case_negative :
  match step F64 F64_IO (fun _ => true) (st_init F64 ex_files) (OpLoad F64 "a" 0 (-1) (T_ " ")) with Bad _ u => u = OutOfBounds | _ => False end.
Proof. vm_compute. reflexivity. Qed.
Example C38_case_table :
  table (T_ " ") 0 (ex_line "1 2 3" ++ ex_line "4 5 6") [[T_ "1"; T_ "2"; T_ "3"]; [T_ "4"; T_ "5"; T_ "6"]].
Proof. rewrite table_rows. vm_compute. reflexivity. Qed.
