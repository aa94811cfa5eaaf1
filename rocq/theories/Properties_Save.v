(** * Properties C36 and C37 (numerals), C39, C55 (saving and reloading datasets), C42 (16 digits).

    [dec_text], [dec_real] and [round10] are defined in DecSpec.v (decimal numerals, what they denote, rounding to
    significant decimal digits), [double_of], [representable] and [number_char] in NumSpec.v, [table] in FileSpec.v, [dataset] and [cell] in GroupSpec.v.  [val] is the real number
    that a finite double denotes and [rnd r] is [r] rounded to a double (to nearest, ties to even). *)
From Coq Require Import ZArith Bool Lia Reals Lra SpecFloat Ascii String List.
From Flocq Require Import Core BinarySingleNaN.
From Verif Require Import Outcome Num TimeSeries Text Dataset Groups Api F64Base FileSpec LoadProofs DecSpec NumSpec DecProofs PrintProofs SaveProofs.
From Verif Require Import GroupSpec GlobalGroup Metric SessionProofs Properties_Groups Properties_Match Properties_Indep Properties_Api Properties_Data Properties_Load.
Import ListNotations.
Open Scope Z_scope.

Lemma not_numeral_stops r : not_numeral r -> stops r.
Proof.
  destruct r as [|c r]; cbn [not_numeral stops]; auto. intros (Hd & Hn). split; auto. cbn [In] in Hn. split; [intros ->; tauto|].
  unfold digit in Hd. split; intros E; destruct c as [[] [] [] [] [] [] [] []]; cbv in E; try discriminate E; apply Hn; cbv; auto 10.
Qed.

(** ** C36, C37: a column that starts with a decimal numeral. *)
Theorem C36_numeral : forall tok rest neg m e, dec_text tok neg m e -> not_numeral rest -> representable (dec_real neg m e) ->
  exists y, io_stod F64_IO (tok ++ rest) = Ok y /\ double_of y neg (dec_real neg m e).
Proof.
  intros tok rest neg m e Ht Hr H. cbn [io_stod F64_IO]. apply not_numeral_stops in Hr.
  assert (Hm : 0 <= m) by (destruct Ht as (s & ip & fp & point & expo & x & _ & _ & Hi & Hf & _ & _ & _ & -> & _); apply dec_value_nonneg; apply Forall_app; auto).
  assert (C : m = 0 \/ in_range (dec_real neg m e)).
  { destruct H as [H|H]; [left|right; exact H]. unfold dec_real in H. apply Rmult_integral in H as [H|H]; [|pose proof (bpow_gt_0 radix10 e); lra].
    apply eq_IZR in H. destruct neg; cbn in H; lia. }
  eexists. split; [apply stod_dec; eauto|]. destruct (Z.eq_dec m 0) as [->|Hz].
  - change (Z.to_N 0) with 0%N. rewrite lit_zero. split; [split; [reflexivity|exact I]|]. split; [|reflexivity]. cbn [val]. unfold dec_real.
    replace (opp_if neg 0) with 0 by (destruct neg; reflexivity). rewrite Rmult_0_l. now rewrite rnd_0.
  - destruct C as [C|(_ & C)]; [lia|]. destruct (lit_finite neg m e ltac:(lia) C) as (F1 & F2). destruct (lit_rnd neg m e ltac:(lia)) as (_ & S). split; auto.
Qed.
Theorem C37_overflow : forall tok rest neg m e, dec_text tok neg m e -> not_numeral rest -> (bpow radix2 1024 <= Rabs (rnd (dec_real neg m e)))%R ->
  io_stod F64_IO (tok ++ rest) = Throw (LogicExn "std::out_of_range").
Proof.
  intros tok rest neg m e Ht Hr H. cbn [io_stod F64_IO]. apply not_numeral_stops in Hr. unfold stod. rewrite (strtod_spec tok neg m e rest Ht Hr).
  assert (Hm : 0 <= m) by (destruct Ht as (s & ip & fp & point & expo & x & _ & _ & Hi & Hf & _ & _ & _ & -> & _); apply dec_value_nonneg; apply Forall_app; auto).
  assert (Hz : m <> 0).
  { intros ->. unfold dec_real in H. replace (opp_if neg 0) with 0 in H by (destruct neg; reflexivity). rewrite Rmult_0_l, rnd_0, Rabs_R0 in H.
    pose proof (bpow_gt_0 radix2 1024). lra. }
  destruct (lit_gen emax64 _ neg m e ltac:(lia)) as (_ & C). cbv zeta in C. change (bpow radix2 emax64) with (bpow radix2 1024) in C.
  change (round radix2 _ ZnearestE ?r) with (rnd r) in C. rewrite Rlt_bool_false in C by auto. change (binary_overflow _ _ _ _) with (S754_infinity neg) in C.
  unfold lit_erange, lit_value. rewrite C. reflexivity.
Qed.

(** ** C39, C55. *)
(** Values that survive: zero, and finite doubles whose first six digits are a normal double. *)
Definition savable (x : spec_float) : Prop := fin64 x /\ (val x = 0%R \/ representable (round10 6 (val x))).
(** In particular all finite doubles from 2^-1021. *)
Theorem C39_savable : forall x, fin64 x -> val x = 0%R \/ (bpow radix2 (-1021) <= Rabs (val x))%R -> savable x.
Proof.
  intros x F [H|H]; (split; [exact F|]); auto. right. right. now apply savable_range.
Qed.
Lemma savable_print x : savable x -> fin64 x /\ (val x = 0%R \/ in_range (round10 6 (val x))).
Proof.
  intros (F & H). split; auto. destruct H as [H|[H|H]]; auto. left. destruct (print_g_spec 6 x ltac:(lia) F) as (m & e & _ & Hm & Hv).
  rewrite H in Hv. unfold dec_real in Hv. apply Rmult_integral in Hv as [Hv|Hv]; [|pose proof (bpow_gt_0 radix10 e); lra].
  apply eq_IZR in Hv. destruct x; try (destruct F as (_ & []); fail); [reflexivity|]. destruct s; cbn in Hv; lia.
Qed.

Section Reload.
Context (writable : string -> bool).
Local Notation step := (step F64 F64_IO writable).
Local Notation st := (st F64).

Lemma savable_plain c seps x : savable x -> (forall k, In k seps -> ~ number_char k) -> plain F64 F64_IO c seps x.
Proof.
  intros H Hs. apply savable_print in H as (F & _). destruct (print_g_spec 6 x ltac:(lia) F) as (m & e & Ht & _). cbn [io_print F64_IO] in *.
  assert (C : forall k, In k (print_g 6 x) -> number_char k) by (intros k Hk; exact (dec_text_chars _ _ _ _ _ Ht Hk)).
  split; [|split].
  - cbn [io_print F64_IO]. destruct Ht as (s & ip & fp & point & expo & xx & -> & _ & _ & _ & Hn & Hp & _). intros E. apply Hn. apply app_eq_nil in E as (_ & E). apply app_eq_nil in E as (-> & E). apply app_eq_nil in E as (E & _).
    destruct Hp as [->|(_ & ->)]; [discriminate|reflexivity].
  - cbn [io_print F64_IO]. apply Forall_forall. intros k Hk Hin. apply (Hs k Hin), C, Hk.
  - cbn [io_print F64_IO]. intros Hn. apply C in Hn as [Hn|Hn]; [unfold digit in Hn; cbn in Hn; lia|]. cbn in Hn. repeat destruct Hn as [Hn|Hn]; try discriminate. contradiction.
Qed.

Lemma save_step (σ : st) i d data p c : dataset F64 σ i d data -> 0 <= set_len (ds_set F64 d) -> writable p = true ->
  exists σ' rows, step σ (OpSave F64 i p c) = Done F64 σ' (VUnit F64) /\ σ' = with_file F64 σ p (save_text F64 F64_IO c rows) /\ zlen rows = set_count (ds_set F64 d) /\
    forall t r, zget rows t = Ok r -> zlen r = set_len (ds_set F64 d) /\ forall j, 0 <= j < set_len (ds_set F64 d) -> zget r j = zget data (t * set_len (ds_set F64 d) + j).
Proof.
  intros (C & b & Hb & Hh & Hc & Hd) Hl Hw. destruct (saveData_spec F64 F64_IO _ _ _ _ c Hb Hh Hc Hl Hd) as (rows & E & L & G).
  exists (with_file F64 σ p (save_text F64 F64_IO c rows)), rows. split; [|auto]. cbn [Api.step]. unfold api_save. rewrite C. cbn [lift]. rewrite Hw. cbn [negb]. now rewrite E.
Qed.

Lemma zget_map {A B} (f : A -> B) l i y : zget (map f l) i = Ok y -> exists x, zget l i = Ok x /\ y = f x.
Proof.
  unfold zget. destruct (i <? 0); [discriminate|]. rewrite nth_error_map. destruct (nth_error l (Z.to_nat i)); cbn; [|discriminate]. intros E. injection E as <-. eauto.
Qed.
Lemma zget_map_Ok {A B} (f : A -> B) l i x : zget l i = Ok x -> zget (map f l) i = Ok (f x).
Proof.
  unfold zget. destruct (i <? 0); [discriminate|]. rewrite nth_error_map. destruct (nth_error l (Z.to_nat i)); cbn; [|discriminate]. intros E. now injection E as <-.
Qed.
Lemma zget_ext {A} (l l' : list A) : zlen l = zlen l' -> (forall i, 0 <= i < zlen l -> zget l i = zget l' i) -> l = l'.
Proof.
  intros Hl H. destruct l as [|a l0] eqn:El; [destruct l'; [reflexivity|unfold zlen in Hl; cbn in Hl; lia]|]. rewrite <- El in *.
  apply (nth_ext _ _ a a); [unfold zlen in Hl; lia|]. intros k Hk. specialize (H (Z.of_nat k) ltac:(unfold zlen; lia)).
  rewrite !(zget_nth _ _ a) in H by (unfold zlen in *; lia). rewrite Nat2Z.id in H. now injection H.
Qed.
Lemma save_text_map c rows : save_text F64 F64_IO c rows = flat_map (fun r => flat_map (fun t => t ++ [c]) r ++ [nl]) (map (map (io_print F64_IO 6)) rows).
Proof.
  unfold save_text, save_line. rewrite flat_map_concat_map, (flat_map_concat_map _ (map _ _)), map_map. f_equal. apply map_ext. intros r. f_equal.
  now rewrite flat_map_concat_map, (flat_map_concat_map _ (map _ _)), map_map.
Qed.

Theorem C39_reload : forall (σ : st) i d data p c seps m,
  dataset F64 σ i d data -> 1 <= set_count (ds_set F64 d) -> 0 <= set_len (ds_set F64 d) ->
  (forall t j x, cell F64 d data t j x -> savable x) ->
  writable p = true -> c <> nl -> In c seps -> (forall k, In k seps -> ~ number_char k) -> m <= 0 ->
  exists σ1 σ2 n d2 data2, step σ (OpSave F64 i p c) = Done F64 σ1 (VUnit F64) /\
    step σ1 (OpLoad F64 p m 0 seps) = Done F64 σ2 (VInfo F64 (mkInfo n p (set_count (ds_set F64 d)) (set_len (ds_set F64 d)) false false)) /\
    dataset F64 σ2 n d2 data2 /\ set_count (ds_set F64 d2) = set_count (ds_set F64 d) /\ set_len (ds_set F64 d2) = set_len (ds_set F64 d) /\
    forall t j x, cell F64 d data t j x -> exists y, cell F64 d2 data2 t j y /\ double_of y (sign_SF x) (round10 6 (val x)).
Proof.
  intros σ i d data p c seps m D Hc Hl Hs Hw Hn Hin Hch Hm.
  destruct (save_step σ i d data p c D Hl Hw) as (σ1 & rows & E1 & Eσ & L & G).
  assert (V : forall t r j x, zget rows t = Ok r -> zget r j = Ok x -> cell F64 d data t j x).
  { intros t r j x Ht Hj. destruct (G t r Ht) as (Lr & Gr). pose proof (zget_inv _ _ _ Ht) as (Bt & _). pose proof (zget_inv _ _ _ Hj) as (Bj & _).
    split; [lia|]. split; [lia|]. rewrite <- Gr by lia. exact Hj. }
  assert (In_zget : forall {A} (l : list A) r, In r l -> exists k, zget l k = Ok r).
  { intros A l r Hr. apply In_nth_error in Hr as (k & Hk). exists (Z.of_nat k). unfold zget. destruct (Z.ltb_spec (Z.of_nat k) 0); [lia|]. rewrite Nat2Z.id, Hk. reflexivity. }
  assert (T : table seps m (save_text F64 F64_IO c rows) (map (map (io_print F64_IO 6)) rows)).
  { apply save_table; auto. apply Forall_forall. intros r Hr. apply In_zget in Hr as (t & Ht). apply Forall_forall. intros x Hx. apply In_zget in Hx as (j & Hj).
    apply savable_plain; auto. eapply Hs, V; eauto. }
  destruct (C36_load F64 F64_IO writable σ1 p _ m 0 seps _ (set_len (ds_set F64 d)) ltac:(rewrite Eσ; cbn; now rewrite String.eqb_refl) T) as (σ2 & n & d2 & data2 & E2 & D2 & C2 & L2 & _ & _ & G2).
  - destruct rows; [unfold zlen in L; cbn in L; lia|discriminate].
  - lia.
  - intros t r Ht. apply zget_map in Ht as (r0 & Ht & ->). rewrite zlen_map. apply (G t r0 Ht).
  - intros t r j tok Ht _ Hj. apply zget_map in Ht as (r0 & Ht & ->). apply zget_map in Hj as (x & Hj & ->).
    pose proof (Hs _ _ _ (V _ _ _ _ Ht Hj)) as Sx. apply savable_print in Sx as (F & Sx). destruct (read_printed 6 x [] ltac:(lia) F Sx I) as (y & Ey & _).
    exists y. rewrite app_nil_r in Ey. exact Ey.
  - exists σ1, σ2, n, d2, data2. rewrite zlen_map, L, Z.sub_0_r in *. split; [exact E1|]. split; [exact E2|]. split; [exact D2|]. split; [lia|]. split; [lia|].
    intros t j x (Bt & Bj & Hx). destruct (zget_Ok rows t ltac:(lia)) as (r & Hr). destruct (G t r Hr) as (Lr & Gr). rewrite <- Gr in Hx by lia.
    destruct (G2 t (map (io_print F64_IO 6) r) j (io_print F64_IO 6 x)) as (y & Ey & Cy).
    + now apply zget_map_Ok.
    + lia.
    + cbn [Z.add]. now apply zget_map_Ok.
    + exists y. split; [exact Cy|]. pose proof (Hs _ _ _ (V _ _ _ _ Hr Hx)) as Sx. apply savable_print in Sx as (F & Sx).
      destruct (read_printed 6 x [] ltac:(lia) F Sx I) as (y' & Ey' & R). rewrite app_nil_r in Ey'. cbn [io_stod io_print F64_IO] in Ey. rewrite Ey in Ey'. injection Ey' as <-. exact R.
Qed.
(** Saving what was loaded from a saved file writes the same text again. *)
Theorem C55_same_file : forall (σ : st) i d data p p' c seps m,
  dataset F64 σ i d data -> 1 <= set_count (ds_set F64 d) -> 0 <= set_len (ds_set F64 d) ->
  (forall t j x, cell F64 d data t j x -> savable x) ->
  writable p = true -> writable p' = true -> c <> nl -> In c seps -> (forall k, In k seps -> ~ number_char k) -> m <= 0 ->
  exists σ1 σ2 σ3 info contents, step σ (OpSave F64 i p c) = Done F64 σ1 (VUnit F64) /\ st_files F64 σ1 p = Some contents /\
    step σ1 (OpLoad F64 p m 0 seps) = Done F64 σ2 (VInfo F64 info) /\
    step σ2 (OpSave F64 (i_id info) p' c) = Done F64 σ3 (VUnit F64) /\ st_files F64 σ3 p' = Some contents.
Proof.
  intros σ i d data p p' c seps m D Hc Hl Hs Hw Hw' Hn Hin Hch Hm.
  destruct (C39_reload σ i d data p c seps m D Hc Hl Hs Hw Hn Hin Hch Hm) as (σ1 & σ2 & n & d2 & data2 & E1 & E2 & D2 & C2 & L2 & V).
  destruct (save_step σ i d data p c D Hl Hw) as (σ1' & rows & E1' & Eσ & Lr & G). rewrite E1 in E1'. injection E1' as <-.
  destruct (save_step σ2 n d2 data2 p' c D2 ltac:(lia) Hw') as (σ3 & rows2 & E3 & Eσ3 & Lr2 & G2).
  eexists σ1, σ2, σ3, _, (save_text F64 F64_IO c rows). split; [exact E1|]. split; [rewrite Eσ; cbn; now rewrite String.eqb_refl|]. split; [exact E2|]. split; [exact E3|].
  rewrite Eσ3. cbn. rewrite String.eqb_refl. f_equal. rewrite !save_text_map. f_equal. apply zget_ext; [rewrite !zlen_map; lia|].
  intros t Ht. rewrite zlen_map in Ht. destruct (zget_Ok rows2 t Ht) as (r2 & H2). destruct (zget_Ok rows t ltac:(lia)) as (r & H1).
  rewrite (zget_map_Ok _ _ _ _ H2), (zget_map_Ok _ _ _ _ H1). f_equal. destruct (G t r H1) as (Lt & Gt). destruct (G2 t r2 H2) as (Lt2 & Gt2).
  apply zget_ext; [rewrite !zlen_map; lia|]. intros j Hj. rewrite zlen_map in Hj. destruct (zget_Ok r2 j Hj) as (y & Hy). destruct (zget_Ok r j ltac:(lia)) as (x & Hx).
  rewrite (zget_map_Ok _ _ _ _ Hy), (zget_map_Ok _ _ _ _ Hx). f_equal. rewrite Gt2 in Hy by lia. rewrite Gt in Hx by lia.
  destruct (V t j x) as (y' & (_ & _ & Hy') & F & Ev & Es); [split; [lia|split; [lia|exact Hx]]|]. rewrite Hy in Hy'. injection Hy' as <-.
  pose proof (Hs t j x ltac:(split; [lia|split; [lia|exact Hx]])) as Sx. apply savable_print in Sx as (Fx & Sx). cbn [io_print F64_IO]. now apply print_again.
Qed.
End Reload.

(** ** Cases. *)
Definition ex_save_files (p : string) : option text :=
  if String.eqb p "f" then Some (ex_line "1.2345678,-0,3e200" ++ ex_line "0.1,2,-7e-200")
  else if String.eqb p "tiny" then Some (ex_line "2.2250738585072014e-308") else None.
Definition ex_saved (p : string) : option (list spec_float * list spec_float * text) :=
  match run F64 F64_IO (fun _ => true) (st_init F64 ex_save_files) [OpLoad F64 p 0 0 (T_ ","); OpSave F64 0 "g" ";"; OpLoad F64 "g" 0 0 (T_ " ;")] with
  | Some σ => match look σ 0, look σ 1, st_files F64 σ "g" with Some (_, l), Some (_, l2), Some t => Some (l, l2, t) | _, _, _ => None end
  | None => None
  end.
Example C39_C55_case_run : match ex_saved "f" with
  | Some (l, l2, t) => t = ex_line "1.23457;-0;3e+200;" ++ ex_line "0.1;2;-7e-200;" /\ forallb fin64b l = true /\
      nth 1 l2 S754_nan = S754_zero true /\ nth 0 l S754_nan <> nth 0 l2 S754_nan /\ skipn 1 l2 = skipn 1 l
  | None => False end.
Proof. vm_compute. repeat split; discriminate. Qed.
Definition savableb (x : spec_float) : bool :=
  fin64b x && match x with S754_zero _ => true | S754_finite _ _ e => -1021 <=? e | _ => false end.
Lemma savableb_spec x : savableb x = true -> savable x.
Proof.
  intros H. apply andb_prop in H as (H1 & H2). apply fin64b_spec in H1. apply C39_savable; auto. destruct x as [s|s| |s p e]; try discriminate; [left; reflexivity|right].
  apply Z.leb_le in H2. cbn [val]. rewrite F2R_cond_Zopp, abs_cond_Ropp, Rabs_pos_eq by (apply F2R_ge_0; cbn; lia). apply Rle_trans with (bpow radix2 e); [now apply bpow_le|].
  apply bpow_le_F2R. reflexivity.
Qed.
Example C39_C55_case : exists σ d data, reachable F64 F64_IO (fun _ => true) σ /\ dataset F64 σ 0 d data /\
  set_count (ds_set F64 d) = 2 /\ set_len (ds_set F64 d) = 3 /\ (forall t j x, cell F64 d data t j x -> savable x) /\
  ";"%char <> nl /\ In ";"%char (T_ " ;") /\ (forall k, In k (T_ " ;") -> ~ number_char k).
Proof.
  assert (H : match run F64 F64_IO (fun _ => true) (st_init F64 ex_save_files) [OpLoad F64 "f" 0 0 (T_ ",")] with
    | Some σ => match look σ 0 with Some (d, l) => (set_count (ds_set F64 d) =? 2) && (set_len (ds_set F64 d) =? 3) && forallb savableb l | None => false end
    | None => false end = true) by (vm_compute; reflexivity).
  destruct (run _ _ _ _ _) as [σ|] eqn:E; [|discriminate]. destruct (look σ 0) as [[d l]|] eqn:L; [|discriminate]. repeat (apply andb_prop in H as (H & ?)).
  exists σ, d, l. split; [eexists _, _; exact E|]. split; [now apply look_spec|]. split; [lia|]. split; [lia|]. split.
  { intros t j x (_ & _ & Hx). apply GroupProofs.zget_in in Hx. apply savableb_spec. eapply forallb_forall in H0; eauto. }
  split; [discriminate|]. split; [cbn; auto|]. intros k Hk [Hd|Hd]; cbn [T_ list_ascii_of_string In] in Hk, Hd.
  - destruct Hk as [<-|[<-|[]]]; destruct Hd as (D1 & D2); [now apply D1|now apply D2].
  - destruct Hk as [<-|[<-|[]]]; repeat (destruct Hd as [Hd|Hd]; [discriminate Hd|]); exact Hd.
Qed.
(** The round trip changes 1.2345678. *)
Theorem C39_lossy_witness : exists (σ : st F64) σ' d data d' data' x y, reachable F64 F64_IO (fun _ => true) σ /\ dataset F64 σ 0 d data /\
  run F64 F64_IO (fun _ => true) σ [OpSave F64 0 "g" ";"; OpLoad F64 "g" 0 0 (T_ " ;")] = Some σ' /\ dataset F64 σ' 1 d' data' /\
  cell F64 d data 0 0 x /\ cell F64 d' data' 0 0 y /\ fin64 x /\ fin64 y /\ SFeqb x y = false.
Proof.
  assert (H : match run F64 F64_IO (fun _ => true) (st_init F64 ex_save_files) [OpLoad F64 "f" 0 0 (T_ ",")] with
    | Some σ => match look σ 0 with Some (d, x :: l) =>
        match run F64 F64_IO (fun _ => true) σ [OpSave F64 0 "g" ";"; OpLoad F64 "g" 0 0 (T_ " ;")] with
        | Some σ' => match look σ' 1 with Some (d', y :: l') => (1 <=? set_count (ds_set F64 d)) && (1 <=? set_len (ds_set F64 d)) && (1 <=? set_count (ds_set F64 d')) && (1 <=? set_len (ds_set F64 d')) &&
             fin64b x && fin64b y && negb (SFeqb x y) | _ => false end
        | None => false end | _ => false end
    | None => false end = true) by (vm_compute; reflexivity).
  destruct (run _ _ _ (st_init _ _) _) as [σ|] eqn:E; [|discriminate H]. destruct (look σ 0) as [[d [|x l]]|] eqn:L; [discriminate H| |discriminate H].
  destruct (run _ _ _ σ _) as [σ'|] eqn:E'; [|discriminate H]. destruct (look σ' 1) as [[d' [|y l']]|] eqn:L'; [discriminate H| |discriminate H]. repeat (apply andb_prop in H as (H & ?)).
  apply look_spec in L, L'. exists σ, σ', d, (x :: l), d', (y :: l'), x, y. split; [eexists _, _; exact E|]. do 3 (split; [assumption|]).
  do 2 (split; [split; [lia|]; split; [lia|]; reflexivity|]). do 2 (split; [now apply fin64b_spec|]). now apply negb_true_iff.
Qed.
(** A dataset that contains the smallest normal double is saved but the file cannot be loaded. *)
Theorem C39_tiny_witness : exists (σ : st F64) d data σ', reachable F64 F64_IO (fun _ => true) σ /\ dataset F64 σ 0 d data /\
  (forall t j x, cell F64 d data t j x -> fin64 x /\ (bpow radix2 (-1022) <= Rabs (val x))%R) /\ (exists x, cell F64 d data 0 0 x) /\
  step F64 F64_IO (fun _ => true) σ (OpSave F64 0 "g" ";") = Done F64 σ' (VUnit F64) /\
  step F64 F64_IO (fun _ => true) σ' (OpLoad F64 "g" 0 0 (T_ ";")) = Exn F64 σ' (OnexExn "Values are out of range").
Proof.
  assert (H : match run F64 F64_IO (fun _ => true) (st_init F64 ex_save_files) [OpLoad F64 "tiny" 0 0 (T_ ",")] with
    | Some σ => match look σ 0 with Some (d, l) =>
        match step F64 F64_IO (fun _ => true) σ (OpSave F64 0 "g" ";") with
        | Done _ σ' (VUnit _) => match step F64 F64_IO (fun _ => true) σ' (OpLoad F64 "g" 0 0 (T_ ";")) with
            | Exn _ _ (OnexExn m) => String.eqb m "Values are out of range" && (set_count (ds_set F64 d) =? 1) && (set_len (ds_set F64 d) =? 1) &&
                match l with [S754_finite false m e] => (m =? 4503599627370496)%positive && (e =? -1074) | _ => false end | _ => false end
        | _ => false end | None => false end
    | None => false end = true) by (vm_compute; reflexivity).
  destruct (run _ _ _ (st_init _ _) _) as [σ|] eqn:E; [|discriminate H]. destruct (look σ 0) as [[d l]|] eqn:L; [|discriminate H].
  destruct (step F64 _ _ σ _) as [σ' v| | |] eqn:E1; [|discriminate H..]. destruct v; [|discriminate H..].
  destruct (step F64 _ _ σ' _) as [|s2 e| |] eqn:E2; [discriminate H| |discriminate H..]. destruct e as [msg| |]; [|discriminate H..]. repeat (apply andb_prop in H as (H & ?)).
  apply String.eqb_eq in H. subst msg.
  assert (El : l = [S754_finite false 4503599627370496 (-1074)]).
  { destruct l as [|[| | |[] m e] [|]]; try discriminate H0. apply andb_prop in H0 as (H0 & H3). apply Pos.eqb_eq in H0. apply Z.eqb_eq in H3. now subst. }
  apply look_spec in L. exists σ, d, l, σ'. split; [eexists _, _; exact E|]. split; [assumption|]. assert (Hc : set_count (ds_set F64 d) = 1) by lia. assert (Hn : set_len (ds_set F64 d) = 1) by lia.
  split; [|split; [|split; [exact E1|]]].
  - intros t j x (_ & _ & Hx). apply GroupProofs.zget_in in Hx. rewrite El in Hx. destruct Hx as [<-|[]]. split; [split; [vm_compute; reflexivity|exact I]|].
    cbn [val cond_Zopp]. rewrite Rabs_pos_eq by (apply F2R_ge_0; cbn; lia). unfold F2R. cbn [Fnum Fexp].
    replace 4503599627370496%R with (bpow radix2 52) by (rewrite <- (IZR_Zpower radix2 52) by lia; reflexivity). rewrite <- bpow_plus. apply Rle_refl.
  - exists (S754_finite false 4503599627370496 (-1074)). split; [lia|]. split; [lia|]. rewrite El. reflexivity.
  - apply C47_failing_operations in E2 as Eq; [|intros; discriminate]. rewrite E2, Eq. reflexivity.
Qed.

(** ** C42: printing with 16 digits and reading back changes 0.1 + 0.2. *)
Theorem C42_witness : exists x y, fin64 x /\ fin64 y /\ io_conv F64_IO (io_print F64_IO 16 x) = (y, true, []) /\ SFeqb x y = false.
Proof.
  set (q := fun n => SFdiv prec64 emax64 (f64_ofZ n) (f64_ofZ 10)). exists (SFadd prec64 emax64 (q 1) (q 2)), (q 3).
  do 2 (split; [apply fin64b_spec; vm_compute; reflexivity|]). vm_compute. auto.
Qed.
