(** * Lines, columns and loadData. *)
From Coq Require Import ZArith Bool Lia Ascii String List.
From Verif Require Import Outcome Num Text Dataset FileSpec.
Import ListNotations.
Open Scope Z_scope.

(** ** Lines. *)
Lemma lines_aux_line l t : forall cur, ~ In nl l -> lines_aux cur (l ++ nl :: t) = rev (rev l ++ cur) :: lines_aux [] t.
Proof.
  induction l as [|c l IH]; intros cur H; cbn [app lines_aux].
  - rewrite Ascii.eqb_refl. reflexivity.
  - destruct (Ascii.eqb_spec c nl) as [->|_]; [exfalso; apply H; left; reflexivity|].
    rewrite IH by (intros K; apply H; now right). cbn [rev]. rewrite <- app_assoc. reflexivity.
Qed.
Lemma lines_aux_last l : forall cur, ~ In nl l -> lines_aux cur l = match rev l ++ cur with [] => [] | c => [rev c] end.
Proof.
  induction l as [|c l IH]; intros cur H; cbn [app lines_aux rev].
  - destruct cur; reflexivity.
  - destruct (Ascii.eqb_spec c nl) as [->|_]; [exfalso; apply H; left; reflexivity|].
    rewrite IH by (intros K; apply H; now right). rewrite <- app_assoc. reflexivity.
Qed.
Lemma file_of_lines ls t : file_of ls t -> lines t = ls.
Proof.
  unfold lines. induction 1 as [|l Hn Hl|l ls t Hl _ IH].
  - reflexivity.
  - rewrite lines_aux_last by auto. rewrite app_nil_r. destruct (rev l) eqn:E; [apply (f_equal (@rev _)) in E; rewrite rev_involutive in E; contradiction|].
    rewrite <- E, rev_involutive. reflexivity.
  - rewrite lines_aux_line by auto. rewrite app_nil_r, rev_involutive, IH. reflexivity.
Qed.
Lemma lines_file_of t : file_of (lines t) t.
Proof.
  assert (G : forall t cur, ~ In nl cur -> file_of (lines_aux cur t) (rev cur ++ t)).
  { clear. induction t as [|c t IH]; intros cur H; cbn [lines_aux].
    - rewrite app_nil_r. destruct cur as [|a cur]; [constructor|]. apply fo_last; [|now rewrite <- in_rev].
      intros E. apply (f_equal (@length _)) in E. rewrite rev_length in E. discriminate.
    - destruct (Ascii.eqb_spec c nl) as [->|Hc].
      + apply fo_line; [now rewrite <- in_rev|]. apply (IH []). intros [].
      + replace (rev cur ++ c :: t) with (rev (c :: cur) ++ t) by (cbn [rev]; rewrite <- app_assoc; reflexivity).
        apply IH. intros [K|K]; auto. }
  apply (G t []). intros [].
Qed.

(** ** Columns. *)
Lemma mem_ascii_iff c l : mem_ascii c l = true <-> In c l.
Proof.
  unfold mem_ascii. rewrite existsb_exists. split.
  - intros (x & Hx & E). apply Ascii.eqb_eq in E. now subst.
  - intros H. exists c. split; auto. apply Ascii.eqb_refl.
Qed.
Lemma mem_ascii_niff c l : mem_ascii c l = false <-> ~ In c l.
Proof. rewrite <- mem_ascii_iff. destruct (mem_ascii c l); split; congruence. Qed.
Lemma tokens_seps seps s t : Forall (fun c => In c seps) s -> tokens_aux seps [] (s ++ t) = tokens_aux seps [] t.
Proof. induction 1 as [|c s Hc _ IH]; auto. cbn. apply mem_ascii_iff in Hc. now rewrite Hc. Qed.
Lemma tokens_tok seps tok t : forall cur, Forall (fun c => ~ In c seps) tok -> tokens_aux seps cur (tok ++ t) = tokens_aux seps (rev tok ++ cur) t.
Proof.
  induction tok as [|c tok IH]; intros cur H; auto. inversion H as [|? ? Hc H']; subst. cbn [app tokens_aux rev]. apply mem_ascii_niff in Hc. rewrite Hc.
  rewrite IH by auto. rewrite <- app_assoc. reflexivity.
Qed.
Lemma tokens_stop seps cur t : cur <> [] -> (t = [] \/ exists c r, t = c :: r /\ In c seps) -> tokens_aux seps cur t = rev cur :: tokens_aux seps [] t.
Proof.
  intros Hc [->|(c & r & -> & H)]; cbn.
  - destruct cur; [contradiction|reflexivity].
  - apply mem_ascii_iff in H. rewrite H. destruct cur; [contradiction|reflexivity].
Qed.
Lemma line_of_tokens seps toks l : line_of seps toks l -> tokens seps l = toks.
Proof.
  unfold tokens. induction 1 as [s H|s tok rest toks H Hn Ht Hr _ IH].
  - rewrite <- (app_nil_r s). now rewrite tokens_seps.
  - rewrite tokens_seps, tokens_tok, app_nil_r, tokens_stop, rev_involutive, IH; auto.
    intros E. apply Hn. now rewrite <- (rev_involutive tok), E.
Qed.
Lemma line_of_sep seps toks c l : In c seps -> line_of seps toks l -> line_of seps toks (c :: l).
Proof.
  intros Hc H. destruct H.
  - apply lo_end. now constructor.
  - change (c :: s ++ tok ++ rest) with ((c :: s) ++ tok ++ rest). apply lo_tok; auto.
Qed.
Lemma tokens_line_of seps l : line_of seps (tokens seps l) l.
Proof.
  assert (G : forall t cur, Forall (fun c => ~ In c seps) cur -> line_of seps (tokens_aux seps cur t) (rev cur ++ t)).
  { clear. intros t.
    assert (R : forall cur : text, cur <> [] -> rev cur <> []) by (intros cur H E; apply H; rewrite <- (rev_involutive cur), E; reflexivity).
    induction t as [|c t IH]; intros cur H; cbn [tokens_aux].
    - destruct cur as [|a cur]; [apply lo_end; constructor|]. apply (lo_tok seps [] (rev (a :: cur)) [] []); auto using Forall_rev.
      + apply R. discriminate.
      + apply lo_end. constructor.
    - destruct (mem_ascii c seps) eqn:E; [apply mem_ascii_iff in E|apply mem_ascii_niff in E].
      + destruct cur as [|a cur]; [apply line_of_sep; auto; apply (IH []); constructor|].
        apply (lo_tok seps [] (rev (a :: cur)) (c :: t)); auto using Forall_rev.
        * apply R. discriminate.
        * right. eauto.
        * apply line_of_sep; auto. apply (IH []). constructor.
      + replace (rev cur ++ c :: t) with (rev (c :: cur) ++ t) by (cbn [rev]; rewrite <- app_assoc; reflexivity).
        apply IH. now constructor. }
  apply (G l []). constructor.
Qed.

(** ** The rows read. *)
Lemma table_rows seps m t rows : table seps m t rows <-> rows = map (tokens seps) (rows_read m (lines t)).
Proof.
  split.
  - intros (ls & F & H). rewrite (file_of_lines ls t F). generalize dependent (rows_read m ls). clear.
    induction 1 as [|r l rows ls H _ IH]; auto. cbn. now rewrite (line_of_tokens _ _ _ H), IH.
  - intros ->. exists (lines t). split; [apply lines_file_of|]. induction (rows_read m (lines t)); constructor; auto. apply tokens_line_of.
Qed.
Lemma read_firstn m (ls : list text) :
  firstn (Z.to_nat (if m <=? 0 then zlen ls else Z.min m (zlen ls))) ls = rows_read m ls /\
  (if m <=? 0 then zlen ls else Z.min m (zlen ls)) = zlen (rows_read m ls).
Proof.
  unfold rows_read, zlen. destruct (Z.leb_spec m 0).
  - rewrite Nat2Z.id, firstn_all. auto.
  - rewrite firstn_length. split; [|lia]. destruct (Z_le_gt_dec m (Z.of_nat (length ls))).
    + f_equal. lia.
    + rewrite !firstn_all2 by lia. reflexivity.
Qed.

Section Load.
Context (N : NumOps) (IO : NumIO N).
Local Notation T := (num N).

Lemma parse_value_ok tok v : io_stod IO tok = Ok v -> parse_value N IO tok = Ok v.
Proof. unfold parse_value. now intros ->. Qed.
Lemma parse_value_bad tok : stod_ok IO -> ~ parses IO tok -> exists m, parse_value N IO tok = Throw (OnexExn m).
Proof.
  intros S H. unfold parse_value. destruct (S tok) as [K|(k & ->)]; [contradiction|]. destruct (String.eqb k "std::out_of_range"); eauto.
Qed.

(** Kept columns of a row that starts at column [col]. *)
Definition kept (startCol col : Z) (toks : list text) (P : Z -> text -> Prop) : Prop :=
  forall k tok, zget toks k = Ok tok -> startCol <= col + k -> P (col + k) tok.
Lemma kept_cons startCol col tok toks P : kept startCol col (tok :: toks) P -> kept startCol (col + 1) toks P.
Proof.
  intros H k t Hk Hc. replace (col + 1 + k) with (col + (1 + k)) by lia. apply H; [|lia].
  change (tok :: toks) with ([tok] ++ toks). pose proof (zget_inv _ _ _ Hk) as (Hk' & _). change 1 with (zlen [tok]) in *.
  rewrite zget_app_r by lia. replace (zlen [tok] + k - zlen [tok]) with k by lia. exact Hk.
Qed.
Lemma kept_head startCol col tok toks P : kept startCol col (tok :: toks) P -> startCol <= col -> P col tok.
Proof. intros H Hc. replace col with (col + 0) by lia. apply H; [reflexivity|lia]. Qed.

Lemma load_cols_ok startCol row len : forall toks col (data : list T),
  0 <= startCol -> 0 <= col -> 0 <= row -> (row + 1) * len <= zlen data -> col + zlen toks <= len -> kept startCol col toks (fun _ => parses IO) ->
  exists data', for_each toks (load_col N IO row len startCol) (col, data) = Ok (col + zlen toks, data') /\ zlen data' = zlen data /\
    kept startCol col toks (fun c tok => exists v, io_stod IO tok = Ok v /\ zget data' (row * (len - startCol) + (c - startCol)) = Ok v) /\
    forall p, p < row * (len - startCol) + Z.max 0 (col - startCol) -> zget data' p = zget data p.
Proof.
  induction toks as [|tok toks IH]; intros col data Hs Hc Hr Hz Hl K; cbn [for_each].
  - exists data. rewrite zlen_nil, Z.add_0_r. split; auto. split; auto. split; auto. intros k tok H _. apply zget_inv in H as (H & _). cbn in H. lia.
  - rewrite zlen_cons in *. pose proof (zlen_nonneg toks) as Hn. unfold load_col at 1. destruct (Z.leb_spec startCol col) as [Hsc|Hsc].
    + destruct (kept_head _ _ _ _ _ K Hsc) as (v & Hv). rewrite (parse_value_ok _ _ Hv). cbn [bind].
      assert (Hi : 0 <= row * (len - startCol) + (col - startCol) < zlen data) by nia.
      rewrite (zset_Ok _ _ v Hi). cbn [bind]. set (data1 := list_set data _ v).
      assert (E1 : zset data (row * (len - startCol) + (col - startCol)) v = Ok data1) by (apply zset_Ok; exact Hi).
      pose proof (zset_len _ _ _ _ E1) as L1. clearbody data1.
      destruct (IH (col + 1) data1 Hs ltac:(lia) Hr ltac:(lia) ltac:(lia) (kept_cons _ _ _ _ _ K)) as (data' & E & L & V & W).
      exists data'. rewrite E. split; [f_equal; f_equal; lia|]. split; [lia|]. split.
      * intros k t Hk Hk2. pose proof (zget_inv _ _ _ Hk) as (Hk0 & _). destruct (Z.eq_dec k 0) as [->|Hk1].
        -- injection Hk as <-. exists v. split; auto. rewrite W by lia. rewrite Z.add_0_r. exact (zget_zset_eq _ _ _ _ E1).
        -- replace (col + k) with (col + 1 + (k - 1)) by lia. apply V; [|lia].
           change (tok :: toks) with ([tok] ++ toks) in Hk. rewrite zget_app_r in Hk; [exact Hk|change (zlen [tok]) with 1; lia].
      * intros p Hp. rewrite W by lia. apply (zget_zset_neq _ _ _ _ _ E1). lia.
    + destruct (IH (col + 1) data Hs ltac:(lia) Hr ltac:(lia) ltac:(lia) (kept_cons _ _ _ _ _ K)) as (data' & E & L & V & W).
      cbn [bind]. exists data'. rewrite E. split; [f_equal; f_equal; lia|]. split; [lia|]. split.
      * intros k t Hk Hk2. pose proof (zget_inv _ _ _ Hk) as (Hk0 & _). 
        replace (col + k) with (col + 1 + (k - 1)) by lia. apply V; [|lia].
           change (tok :: toks) with ([tok] ++ toks) in Hk. rewrite zget_app_r in Hk; [exact Hk|change (zlen [tok]) with 1; lia].
      * intros p Hp. rewrite W by lia. reflexivity.
Qed.

(** A kept column that cannot be converted. *)
Definition bad_tok (startCol col : Z) (toks : list text) : Prop := exists k tok, zget toks k = Ok tok /\ startCol <= col + k /\ ~ parses IO tok.
Lemma load_cols_bad startCol row len (S : stod_ok IO) : forall toks col (data : list T),
  0 <= startCol -> 0 <= col -> 0 <= row -> (row + 1) * len <= zlen data -> col + zlen toks <= len -> bad_tok startCol col toks ->
  exists m, for_each toks (load_col N IO row len startCol) (col, data) = Throw (OnexExn m).
Proof.
  induction toks as [|tok toks IH]; intros col data Hs Hc Hr Hz Hl (k & t & Hk & Hk2 & Hb); cbn [for_each]; pose proof (zget_inv _ _ _ Hk) as (Hk0 & _).
  - cbn in Hk0. lia.
  - rewrite zlen_cons in *. pose proof (zlen_nonneg toks) as Hn.
    assert (K : k <> 0 -> bad_tok startCol (col + 1) toks).
    { intros Hk1. exists (k - 1), t. split; [|split; [lia|auto]]. change (tok :: toks) with ([tok] ++ toks) in Hk. rewrite zget_app_r in Hk; [exact Hk|change (zlen [tok]) with 1; lia]. }
    unfold load_col at 1. destruct (Z.leb_spec startCol col) as [Hsc|Hsc].
    + destruct (S tok) as [(v & Hv)|(m & Hm)].
      * rewrite (parse_value_ok _ _ Hv). cbn [bind].
        assert (Hi : 0 <= row * (len - startCol) + (col - startCol) < zlen data) by nia.
        rewrite (zset_Ok _ _ v Hi). cbn [bind]. apply IH; try lia.
        -- unfold zlen. rewrite list_set_length. exact Hz.
        -- apply K. intros ->. injection Hk as <-. apply Hb. exists v. exact Hv.
      * destruct (parse_value_bad tok S) as (msg & ->); [|cbn [bind]; eauto]. intros (v & Hv). congruence.
    + cbn [bind]. apply IH; try lia. apply K. lia.
Qed.

(** The rows after the first. *)
Definition good_row (startCol len : Z) (r : list text) : Prop := zlen r = len /\ kept startCol 0 r (fun _ => parses IO).
Definition bad_row (startCol len : Z) (r : list text) : Prop := zlen r <> len \/ bad_tok startCol 0 r.
Definition stored (startCol len i : Z) (r : list text) (data : list T) : Prop :=
  kept startCol 0 r (fun c tok => exists v, io_stod IO tok = Ok v /\ zget data (i * (len - startCol) + (c - startCol)) = Ok v).

Lemma load_rows_ok R startCol seps len : forall ls row (data : list T),
  0 <= startCol -> 1 <= row -> (row + zlen ls) * len <= zlen data -> 0 <= len ->
  Forall (good_row startCol len) (map (tokens seps) ls) ->
  exists data', for_each ls (load_row N IO R startCol seps) (row, len, Some data) = Ok (row + zlen ls, len, Some data') /\ zlen data' = zlen data /\
    (forall i r, zget (map (tokens seps) ls) i = Ok r -> stored startCol len (row + i) r data') /\
    forall p, p < row * (len - startCol) -> zget data' p = zget data p.
Proof.
  induction ls as [|l ls IH]; intros row data Hs Hr Hz Hl G; cbn [for_each map] in *.
  - exists data. rewrite zlen_nil, Z.add_0_r. do 2 (split; auto). split; auto. intros i r H. apply zget_inv in H as (H & _). cbn in H. lia.
  - rewrite zlen_cons in *. pose proof (zlen_nonneg ls) as Hn. inversion G as [|? ? (Gl & Gk) G']; subst. unfold load_row at 1.
    destruct (Z.eqb_spec row 0); [lia|]. rewrite Z.eqb_refl. cbn [negb bind].
    destruct (load_cols_ok startCol row (zlen (tokens seps l)) (tokens seps l) 0 data Hs ltac:(lia) ltac:(lia) ltac:(nia) ltac:(lia) Gk) as (data1 & E1 & L1 & V1 & W1).
    rewrite E1. cbn [bind].
    destruct (IH (row + 1) data1 Hs ltac:(lia) ltac:(lia) ltac:(lia) G') as (data' & E & L & V & W). exists data'. rewrite E.
    split; [f_equal; f_equal; f_equal; lia|]. split; [lia|]. split.
    + intros i r Hi. pose proof (zget_inv _ _ _ Hi) as (Hi0 & _). destruct (Z.eq_dec i 0) as [->|Hi1].
      * injection Hi as <-. intros k tok Hk Hc. pose proof (zget_inv _ _ _ Hk) as (Hk0 & _). destruct (V1 k tok Hk Hc) as (v & Hv & Hg). exists v. split; auto. rewrite W; [rewrite Z.add_0_r; exact Hg|]. nia.
      * replace (row + i) with (row + 1 + (i - 1)) by lia. apply V.
        change (tokens seps l :: map (tokens seps) ls) with ([tokens seps l] ++ map (tokens seps) ls) in Hi. rewrite zget_app_r in Hi; [exact Hi|change (zlen [_]) with 1; lia].
    + intros p Hp. destruct (Z_lt_le_dec p 0) as [Hc|Hc]; [unfold zget; destruct (Z.ltb_spec p 0); [reflexivity|lia]|].
      rewrite W, W1; [reflexivity|lia|nia].
Qed.
Lemma classic_tok startCol (S : stod_ok IO) : forall toks col, kept startCol col toks (fun _ => parses IO) \/ bad_tok startCol col toks.
Proof.
  induction toks as [|t toks IH]; intros col.
  - left. intros k tok H. apply zget_inv in H as (H & _). cbn in H. lia.
  - assert (Sh : forall k, 0 < k -> zget (t :: toks) k = zget toks (k - 1)).
    { intros k Hk. change (t :: toks) with ([t] ++ toks). rewrite zget_app_r; [reflexivity|change (zlen [t]) with 1; lia]. }
    destruct (IH (col + 1)) as [G|(k & tok & Hk & Hc & Hb)].
    + destruct (Z_le_gt_dec startCol col) as [Hc|Hc].
      * destruct (S t) as [Ht|(m & Ht)].
        -- left. intros k tok Hk Hk2. pose proof (zget_inv _ _ _ Hk) as (Hk0 & _). destruct (Z.eq_dec k 0) as [->|Hk1]; [injection Hk as <-; exact Ht|].
           apply (G (k - 1)); [|lia]. rewrite <- Sh by lia. exact Hk.
        -- right. exists 0, t. split; [reflexivity|]. split; [lia|]. intros (v & Hv). congruence.
      * left. intros k tok Hk Hk2. apply (G (k - 1)); [|lia]. rewrite <- Sh by lia. exact Hk.
    + right. exists (k + 1), tok. pose proof (zget_inv _ _ _ Hk) as (Hk0 & _). rewrite Sh by lia. replace (k + 1 - 1) with k by lia. split; auto. split; [lia|auto].
Qed.
Lemma load_rows_bad R startCol seps len (S : stod_ok IO) : forall ls row (data : list T),
  0 <= startCol -> 1 <= row -> (row + zlen ls) * len <= zlen data -> 0 <= len ->
  Exists (bad_row startCol len) (map (tokens seps) ls) ->
  exists m, for_each ls (load_row N IO R startCol seps) (row, len, Some data) = Throw (OnexExn m).
Proof.
  induction ls as [|l ls IH]; intros row data Hs Hr Hz Hl B; cbn [for_each map] in *; [inversion B|].
  rewrite zlen_cons in *. pose proof (zlen_nonneg ls) as Hn. unfold load_row at 1. destruct (Z.eqb_spec row 0); [lia|].
  destruct (Z.eqb_spec len (zlen (tokens seps l))) as [El|El]; cbn [negb bind]; [|eauto].
  destruct (classic_tok startCol S (tokens seps l) 0) as [G|G].
  - destruct (load_cols_ok startCol row len (tokens seps l) 0 data Hs ltac:(lia) ltac:(lia) ltac:(nia) ltac:(lia) G) as (data1 & E1 & L1 & _).
    rewrite E1. cbn [bind]. apply IH; try lia. inversion B as [? ? B'|? ? B']; subst; auto. exfalso. destruct B' as [B'|(k & t & Hk & Hc & Hb)]; [lia|].
    apply Hb. exact (G k t Hk Hc).
  - destruct (load_cols_bad startCol row len S (tokens seps l) 0 data Hs ltac:(lia) ltac:(lia) ltac:(nia) ltac:(lia) G) as (m & ->). cbn [bind]. eauto.
Qed.

(** ** loadData. *)
Lemma loadData_empty contents m startCol seps : rows_read m (lines contents) = [] ->
  loadData N IO contents m startCol seps = Ok (None, 0, -1 - startCol).
Proof. intros H. unfold loadData. destruct (read_firstn m (lines contents)) as (-> & _). rewrite H. reflexivity. Qed.
Lemma first_row R startCol seps l : 0 <= R ->
  load_row N IO R startCol seps l (0, -1, None) =
  ('(_, data) <- for_each (tokens seps l) (load_col N IO 0 (zlen (tokens seps l)) startCol) (0, zrepeat (nzero N) (R * zlen (tokens seps l))) ;;
   Ok (1, zlen (tokens seps l), Some data)).
Proof. reflexivity. Qed.
Lemma loadData_ok contents m startCol seps r0 rows : 0 <= startCol -> map (tokens seps) (rows_read m (lines contents)) = r0 :: rows ->
  Forall (good_row startCol (zlen r0)) (r0 :: rows) ->
  exists data, loadData N IO contents m startCol seps = Ok (Some data, zlen (r0 :: rows), zlen r0 - startCol) /\
    zlen data = zlen (r0 :: rows) * zlen r0 /\
    forall i r, zget (r0 :: rows) i = Ok r -> stored startCol (zlen r0) i r data.
Proof.
  intros Hs E G. unfold loadData. destruct (read_firstn m (lines contents)) as (-> & ->).
  destruct (rows_read m (lines contents)) as [|l ls]; [discriminate|]. cbn [map] in E. injection E as <- <-.
  set (R := zlen (l :: ls)). assert (HR : R = 1 + zlen ls) by apply zlen_cons. pose proof (zlen_nonneg ls) as Hn. pose proof (zlen_nonneg (tokens seps l)) as Ht.
  cbn [for_each]. rewrite first_row by lia. inversion G as [|? ? (_ & Gk) G']; subst.
  assert (Z0 : zlen (zrepeat (nzero N) (R * zlen (tokens seps l))) = R * zlen (tokens seps l)) by (apply zlen_zrepeat; nia).
  destruct (load_cols_ok startCol 0 (zlen (tokens seps l)) (tokens seps l) 0 (zrepeat (nzero N) (R * zlen (tokens seps l))) Hs ltac:(lia) ltac:(lia) ltac:(nia) ltac:(lia) Gk) as (data1 & E1 & L1 & V1 & _).
  rewrite E1. cbn [bind].
  destruct (load_rows_ok R startCol seps (zlen (tokens seps l)) ls 1 data1 Hs ltac:(lia) ltac:(nia) Ht G') as (data & E2 & L2 & V2 & W2).
  rewrite E2. cbn [bind]. exists data.
  assert (Hm : zlen (tokens seps l :: map (tokens seps) ls) = R) by (unfold R, zlen; cbn [length]; now rewrite map_length).
  rewrite Hm, HR. split; [reflexivity|]. split; [nia|]. intros i r Hi. pose proof (zget_inv _ _ _ Hi) as (Hi0 & _). destruct (Z.eq_dec i 0) as [->|Hi1].
  - injection Hi as <-. intros k tok Hk Hc. pose proof (zget_inv _ _ _ Hk) as (Hk0 & _). destruct (V1 k tok Hk Hc) as (v & Hv & Hg). exists v. split; auto. rewrite W2; [exact Hg|lia].
  - replace i with (1 + (i - 1)) by lia. apply V2.
    change (tokens seps l :: map (tokens seps) ls) with ([tokens seps l] ++ map (tokens seps) ls) in Hi. rewrite zget_app_r in Hi; [exact Hi|change (zlen [_]) with 1; lia].
Qed.
Lemma loadData_bad contents m startCol seps r0 rows (S : stod_ok IO) : 0 <= startCol -> map (tokens seps) (rows_read m (lines contents)) = r0 :: rows ->
  Exists (bad_row startCol (zlen r0)) (r0 :: rows) ->
  exists msg, loadData N IO contents m startCol seps = Throw (OnexExn msg).
Proof.
  intros Hs E B. unfold loadData. destruct (read_firstn m (lines contents)) as (-> & ->).
  destruct (rows_read m (lines contents)) as [|l ls]; [discriminate|]. cbn [map] in E. injection E as <- <-.
  set (R := zlen (l :: ls)). assert (HR : R = 1 + zlen ls) by apply zlen_cons. pose proof (zlen_nonneg ls) as Hn. pose proof (zlen_nonneg (tokens seps l)) as Ht.
  cbn [for_each]. rewrite first_row by lia.
  assert (Z0 : zlen (zrepeat (nzero N) (R * zlen (tokens seps l))) = R * zlen (tokens seps l)) by (apply zlen_zrepeat; nia).
  destruct (classic_tok startCol S (tokens seps l) 0) as [G|G].
  - destruct (load_cols_ok startCol 0 (zlen (tokens seps l)) (tokens seps l) 0 (zrepeat (nzero N) (R * zlen (tokens seps l))) Hs ltac:(lia) ltac:(lia) ltac:(nia) ltac:(lia) G) as (data1 & E1 & L1 & _).
    rewrite E1. cbn [bind].
    destruct (load_rows_bad R startCol seps (zlen (tokens seps l)) S ls 1 data1 Hs ltac:(lia) ltac:(nia) Ht) as (msg & ->); [|cbn [bind]; eauto].
    inversion B as [? ? B'|? ? B']; subst; auto. exfalso. destruct B' as [B'|(k & t & Hk & Hc & Hb)]; [lia|]. apply Hb. exact (G k t Hk Hc).
  - destruct (load_cols_bad startCol 0 (zlen (tokens seps l)) S (tokens seps l) 0 (zrepeat (nzero N) (R * zlen (tokens seps l))) Hs ltac:(lia) ltac:(lia) ltac:(nia) ltac:(lia) G) as (msg & ->).
    cbn [bind]. eauto.
Qed.

(** ** A negative start column. *)
Lemma load_cols_neg startCol row len : forall toks col (data : list T), kept startCol col toks (fun _ => parses IO) ->
  for_each toks (load_col N IO row len startCol) (col, data) = UB OutOfBounds \/
  exists data', for_each toks (load_col N IO row len startCol) (col, data) = Ok (col + zlen toks, data') /\ zlen data' = zlen data /\
    (toks <> [] -> startCol <= col -> row * (len - startCol) + (col + zlen toks - 1 - startCol) < zlen data).
Proof.
  induction toks as [|tok toks IH]; intros col data K; cbn [for_each].
  - right. exists data. rewrite zlen_nil, Z.add_0_r. split; auto. split; auto. congruence.
  - rewrite zlen_cons. unfold load_col at 1 3. destruct (Z.leb_spec startCol col) as [Hsc|Hsc].
    + destruct (kept_head _ _ _ _ _ K Hsc) as (v & Hv). rewrite (parse_value_ok _ _ Hv). cbn [bind].
      destruct (zset data (row * (len - startCol) + (col - startCol)) v) as [data1| |u|] eqn:E1; cbn [bind].
      * apply zset_inv in E1 as E1'. destruct E1' as (Hi & _). pose proof (zset_len _ _ _ _ E1) as L1.
        destruct (IH (col + 1) data1 (kept_cons _ _ _ _ _ K)) as [->|(data' & -> & L & V)]; auto. right. exists data'. split; [f_equal; f_equal; lia|]. split; [lia|].
        intros _ Hc. destruct toks as [|t2 toks]; [cbn; lia|]. specialize (V ltac:(discriminate) ltac:(lia)). lia.
      * unfold zset in E1. destruct (_ || _) in E1; discriminate.
      * unfold zset in E1. destruct (_ || _) in E1; [injection E1 as <-; auto|discriminate].
      * unfold zset in E1. destruct (_ || _) in E1; discriminate.
    + cbn [bind]. destruct (IH (col + 1) data (kept_cons _ _ _ _ _ K)) as [->|(data' & -> & L & V)]; auto. right. exists data'. split; [f_equal; f_equal; lia|]. split; [lia|].
      intros _ Hc. lia.
Qed.
Lemma load_rows_neg R startCol seps len : forall ls row (data : list T), startCol < 0 -> 1 <= row -> 1 <= len ->
  Forall (good_row startCol len) (map (tokens seps) ls) ->
  for_each ls (load_row N IO R startCol seps) (row, len, Some data) = UB OutOfBounds \/
  exists data', for_each ls (load_row N IO R startCol seps) (row, len, Some data) = Ok (row + zlen ls, len, Some data') /\ zlen data' = zlen data /\
    (ls <> [] -> (row + zlen ls - 1) * (len - startCol) + (len - 1 - startCol) < zlen data).
Proof.
  induction ls as [|l ls IH]; intros row data Hs Hr Hl G; cbn [for_each map] in *.
  - right. exists data. rewrite zlen_nil, Z.add_0_r. split; auto. split; auto. congruence.
  - rewrite zlen_cons. pose proof (zlen_nonneg ls) as Hn. inversion G as [|? ? (Gl & Gk) G']; subst. unfold load_row at 1 3.
    destruct (Z.eqb_spec row 0); [lia|]. rewrite Z.eqb_refl. cbn [negb bind].
    destruct (load_cols_neg startCol row (zlen (tokens seps l)) (tokens seps l) 0 data Gk) as [->|(data1 & -> & L1 & V1)]; [auto|]. cbn [bind].
    destruct (IH (row + 1) data1 Hs ltac:(lia) Hl G') as [->|(data' & -> & L & V)]; auto. right. exists data'. split; [f_equal; f_equal; f_equal; lia|]. split; [lia|].
    intros _. destruct ls as [|l2 ls].
    + rewrite zlen_nil. assert (tokens seps l <> []) by (intros K; rewrite K, zlen_nil in Hl; lia). specialize (V1 H ltac:(lia)). nia.
    + specialize (V ltac:(discriminate)). nia.
Qed.
Lemma loadData_neg contents m startCol seps r0 rows : startCol < 0 -> map (tokens seps) (rows_read m (lines contents)) = r0 :: rows ->
  r0 <> [] -> Forall (good_row startCol (zlen r0)) (r0 :: rows) ->
  loadData N IO contents m startCol seps = UB OutOfBounds.
Proof.
  intros Hs E Hr0 G. unfold loadData. destruct (read_firstn m (lines contents)) as (-> & ->).
  destruct (rows_read m (lines contents)) as [|l ls]; [discriminate|]. cbn [map] in E. injection E as <- <-.
  set (R := zlen (l :: ls)). assert (HR : R = 1 + zlen ls) by apply zlen_cons. pose proof (zlen_nonneg ls) as Hn.
  assert (Ht : 1 <= zlen (tokens seps l)) by (destruct (tokens seps l); [contradiction|rewrite zlen_cons; pose proof (zlen_nonneg l0); lia]).
  cbn [for_each]. rewrite first_row by lia. inversion G as [|? ? (_ & Gk) G']; subst.
  assert (Z0 : zlen (zrepeat (nzero N) (R * zlen (tokens seps l))) = R * zlen (tokens seps l)) by (apply zlen_zrepeat; nia).
  destruct (load_cols_neg startCol 0 (zlen (tokens seps l)) (tokens seps l) 0 (zrepeat (nzero N) (R * zlen (tokens seps l))) Gk) as [->|(data1 & -> & L1 & V1)]; [reflexivity|]. cbn [bind].
  destruct (load_rows_neg R startCol seps (zlen (tokens seps l)) ls 1 data1 Hs ltac:(lia) Ht G') as [->|(data & -> & L2 & V2)]; [reflexivity|]. exfalso.
  destruct ls as [|l2 ls]; [specialize (V1 Hr0 ltac:(lia)); change (zlen (@nil text)) with 0 in *; nia|]. specialize (V2 ltac:(discriminate)). nia.
Qed.
Lemma loadData_blank contents m startCol seps r0 rows : startCol < 0 -> map (tokens seps) (rows_read m (lines contents)) = r0 :: rows ->
  Forall (fun r => r = []) (r0 :: rows) ->
  loadData N IO contents m startCol seps = Ok (Some [], zlen (r0 :: rows), - startCol).
Proof.
  intros Hs E G. unfold loadData. destruct (read_firstn m (lines contents)) as (-> & ->).
  destruct (rows_read m (lines contents)) as [|l ls]; [discriminate|]. cbn [map] in E. injection E as <- <-.
  set (R := zlen (l :: ls)). assert (HR : R = 1 + zlen ls) by apply zlen_cons. pose proof (zlen_nonneg ls) as Hn.
  cbn [for_each]. rewrite first_row by lia. inversion G as [|? ? G0 G']; subst. rewrite G0. change (zlen (@nil text)) with 0; rewrite Z.mul_0_r. cbn [for_each bind zrepeat repeat].
  change (zrepeat (nzero N) 0) with (@nil T). assert (Hm : zlen ([] :: map (tokens seps) ls) = R) by (unfold R, zlen; cbn [length]; now rewrite map_length). rewrite Hm.
  assert (K : forall ls row, 1 <= row -> Forall (fun r => r = []) (map (tokens seps) ls) ->
     for_each ls (load_row N IO R startCol seps) (row, 0, Some []) = Ok (row + zlen ls, 0, Some [])).
  { clear. intros ls0. induction ls0 as [|l0 ls0 IH]; intros row Hr G; cbn [for_each map] in *; [change (zlen (@nil text)) with 0; now rewrite Z.add_0_r|].
    inversion G as [|? ? G0 G']; subst. unfold load_row at 1. rewrite G0. destruct (Z.eqb_spec row 0); [lia|]. cbn [zlen length Z.of_nat negb Z.eqb bind for_each].
    rewrite IH by (auto; lia). f_equal. f_equal. f_equal. unfold zlen. cbn [length]. lia. }
  rewrite K by (auto; lia). cbn [bind]. f_equal. f_equal. f_equal. lia.
Qed.
End Load.
