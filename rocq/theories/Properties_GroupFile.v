(** * Properties C40, C41, C43: group files.

    [first_int], [first_double] and [first_word] are defined in NumSpec.v, [header] in GroupFileSpec.v, [has_dataset],
    [grouped_earlier] and [query_is] in GroupSpec.v. *)
From Coq Require Import ZArith Bool Lia Reals Lra SpecFloat Ascii String List.
From Flocq Require Import Core BinarySingleNaN.
From Verif Require Import Outcome Num Distance TimeSeries Text Dataset Groups Api F64Base F64Laws DecSpec NumSpec GroupFileSpec DecProofs PrintProofs StreamProofs SaveProofs GroupFileProofs.
From Verif Require Import TsProofs GroupSpec GroupProofs GroupFacts MatchProofs SessionMatch GlobalGroup Metric SessionProofs Properties_Groups Properties_Match Properties_Indep Properties_Api Properties_Data Properties_Load Properties_Save.
Import ListNotations.
Open Scope Z_scope.

Section GroupFile.
Context (writable : string -> bool).
Local Notation step := (step F64 F64_IO writable).
Local Notation st := (st F64).
Local Notation has := (has_dataset F64).

Lemma ext_dbl t (y : num F64) r : first_double t y r -> extract (io_conv F64_IO) (mkIS t false) = (mkIS r false, Some y).
Proof. apply extract_double. Qed.

(** ** C41: files that do not fit are rejected and nothing changes. *)
Theorem C41_missing_file : forall (σ : st) i d p, has σ i d -> st_files F64 σ p = None ->
  step σ (OpLoadGroup F64 i p) = Exn F64 σ (OnexExn "Cannot open file").
Proof. intros σ i d p H Hf. apply has_check in H. cbn. unfold api_loadGroup. rewrite H. cbn [lift]. now rewrite Hf. Qed.
Theorem C41_version : forall (σ : st) i d p t v r, has σ i d -> st_files F64 σ p = Some t -> first_int t v r -> v <> 1 ->
  step σ (OpLoadGroup F64 i p) = Exn F64 σ (OnexExn "Incompatible file version").
Proof.
  intros σ i d p t v r H Hf Hv Hne. apply has_check in H. cbn. unfold api_loadGroup. rewrite H. cbn [lift]. rewrite Hf. unfold load_header.
  rewrite (extract_int _ _ _ Hv). destruct (extract _ _) as [f1 o1]. destruct (extract _ _) as [f2 o2]. destruct (extract _ _) as [f3 o3]. cbn [init bind].
  destruct (Z.eqb_spec v 1); [contradiction|]. reflexivity.
Qed.
Theorem C41_not_a_number : forall (σ : st) i d p t c w r, has σ i d -> st_files F64 σ p = Some t -> first_word t (c :: w) r -> ~ digit c -> ~ In c ["+"; "-"]%char ->
  step σ (OpLoadGroup F64 i p) = Exn F64 σ (OnexExn "Incompatible file version").
Proof.
  intros σ i d p t c w r H Hf Hw Hd Hs. apply has_check in H. cbn. unfold api_loadGroup. rewrite H. cbn [lift]. rewrite Hf. unfold load_header.
  destruct (extract_not_int _ _ _ _ _ Hw eq_refl Hd Hs) as (r' & ->). rewrite !extract_failed. reflexivity.
Qed.
Theorem C41_count : forall (σ : st) i d p t thr cnt len r, has σ i d -> st_files F64 σ p = Some t -> header t 1 thr cnt len r -> cnt <> set_count (ds_set F64 d) ->
  step σ (OpLoadGroup F64 i p) = Exn F64 σ (OnexExn "Incompatible item count").
Proof.
  intros σ i d p t thr cnt len r H Hf (r1 & r2 & r3 & H1 & H2 & H3 & H4) Hne. apply has_check in H. cbn. unfold api_loadGroup. rewrite H. cbn [lift]. rewrite Hf. unfold load_header.
  rewrite (extract_int _ _ _ H1). rewrite (ext_dbl _ _ _ H2), (extract_int _ _ _ H3), (extract_int _ _ _ H4). cbn [init bind Z.eqb Pos.eqb negb].
  destruct (Z.eqb_spec cnt (set_count (ds_set F64 d))); [contradiction|]. reflexivity.
Qed.
Theorem C41_length : forall (σ : st) i d p t thr len r, has σ i d -> st_files F64 σ p = Some t -> header t 1 thr (set_count (ds_set F64 d)) len r -> len <> set_len (ds_set F64 d) ->
  step σ (OpLoadGroup F64 i p) = Exn F64 σ (OnexExn "Incompatible item length").
Proof.
  intros σ i d p t thr len r H Hf (r1 & r2 & r3 & H1 & H2 & H3 & H4) Hne. apply has_check in H. cbn. unfold api_loadGroup. rewrite H. cbn [lift]. rewrite Hf. unfold load_header.
  rewrite (extract_int _ _ _ H1). rewrite (ext_dbl _ _ _ H2), (extract_int _ _ _ H3), (extract_int _ _ _ H4). cbn [init bind Z.eqb Pos.eqb negb].
  rewrite Z.eqb_refl. cbn [negb]. destruct (Z.eqb_spec len (set_len (ds_set F64 d))); [contradiction|]. reflexivity.
Qed.
(** A file without any word: the version is compared although nothing was read. *)
Theorem C41_blank_file : forall (σ : st) i d p t, has σ i d -> st_files F64 σ p = Some t -> Forall white t ->
  step σ (OpLoadGroup F64 i p) = Bad F64 Uninit.
Proof.
  intros σ i d p t H Hf Hw. apply has_check in H. cbn. unfold api_loadGroup. rewrite H. cbn [lift]. rewrite Hf. unfold load_header.
  rewrite (extract_end _ _ Hw), !extract_failed. reflexivity.
Qed.

(** The same with a version that is an integer but fits no int. *)
Theorem C41_version_too_large : forall (σ : st) i d p t u z r, has σ i d -> st_files F64 σ p = Some t -> first_word t u r -> int_text u z -> ~ (- 2 ^ 31 <= z < 2 ^ 31) ->
  step σ (OpLoadGroup F64 i p) = Exn F64 σ (OnexExn "Incompatible file version").
Proof.
  intros σ i d p t u z r H Hf Hw Hi Hz. apply has_check in H. cbn. unfold api_loadGroup. rewrite H. cbn [lift]. rewrite Hf. unfold load_header.
  rewrite (extract_int_out _ _ _ _ Hw Hi Hz), !extract_failed. cbn [init bind]. destruct (z <? 0); reflexivity.
Qed.

(** A header that fits, then an unknown distance name, lengths that cannot be read (the end of the file, not a number, a number
    that fits no int): an exception, but the old groups are gone and the dataset still counts as grouped. *)
Definition no_int (t : text) : Prop :=
  Forall white t \/ (exists u r z, first_word t u r /\ int_text u z /\ ~ (- 2 ^ 31 <= z < 2 ^ 31)) \/
  (exists c u r, first_word t (c :: u) r /\ ~ digit c /\ ~ In c ["+"; "-"]%char).
Definition distance_name (r w : text) : Prop :=
  (exists a b r1 r2 r3, first_int r a r1 /\ first_int r1 b r2 /\ first_word r2 w r3) \/
  ((no_int r \/ exists a r1, first_int r a r1 /\ no_int r1) /\ w = []).
Lemma extract_no_int t : no_int t -> exists r v, extract conv_int (mkIS t false) = (mkIS r true, v).
Proof.
  intros [H|[(u & r & z & Hw & Hi & Hz)|(c & u & r & Hw & Hd & Hs)]].
  - rewrite (extract_end _ _ H). eauto.
  - rewrite (extract_int_out _ _ _ _ Hw Hi Hz). eauto.
  - destruct (extract_not_int _ _ _ _ _ Hw eq_refl Hd Hs) as (r' & ->). eauto.
Qed.
Theorem C41_unknown_distance : forall (σ : st) i d p t thr r w, has σ i d -> st_files F64 σ p = Some t ->
  header t 1 thr (set_count (ds_set F64 d)) (set_len (ds_set F64 d)) r -> distance_name r w -> ~ In w [T_ "euclidean"; T_ "euclidean_dtw"] ->
  exists σ' d' gs m, step σ (OpLoadGroup F64 i p) = Exn F64 σ' (OnexExn m) /\ has σ' i d' /\ ds_set F64 d' = ds_set F64 d /\
    ds_groups F64 d' = Some gs /\ gs_spaces F64 gs = [] /\ (forall j e, j <> i -> has σ' j e <-> has σ j e) /\
    st_heap F64 σ' = st_heap F64 σ /\ st_ratio F64 σ' = st_ratio F64 σ /\
    step σ' (OpInfo F64 i) = Done F64 σ' (VInfo F64 (mkInfo i (set_path (ds_set F64 d)) (set_count (ds_set F64 d)) (set_len (ds_set F64 d)) true (set_norm (ds_set F64 d)))).
Proof.
  intros σ i d p t thr r w H Hf (r1 & r2 & r3 & H1 & H2 & H3 & H4) Hw Hn. apply has_check in H. pose proof (proj1 (check_inv F64 _ _ _ H)) as Hi.
  assert (Hd : getDistance (string_of_list_ascii w) = Throw (OnexExn ("Cannot find distance with name: " ++ string_of_list_ascii w)%string)).
  { unfold getDistance. destruct (String.eqb_spec (string_of_list_ascii w) "euclidean") as [E|_].
    - exfalso. apply Hn. left. rewrite <- (list_ascii_of_string_of_list_ascii w), E. reflexivity.
    - destruct (String.eqb_spec (string_of_list_ascii w) "euclidean_dtw") as [E|_]; auto. exfalso. apply Hn. right. left. rewrite <- (list_ascii_of_string_of_list_ascii w), E. reflexivity. }
  assert (E : exists fin, global_loadGroups F64 F64_IO (ds_set F64 d) (mkIS r false) = Ok (mkGS F64 [] (string_of_list_ascii w) None, inr (OnexExn ("Cannot find distance with name: " ++ string_of_list_ascii w)%string)) /\ fin = r).
  { exists r. split; auto. unfold global_loadGroups. destruct Hw as [(a & b & q1 & q2 & q3 & W1 & W2 & W3)|([Hw|(a & q1 & W1 & Hw)] & ->)].
    - rewrite (extract_int _ _ _ W1), (extract_int _ _ _ W2), (extract_name _ _ _ W3). now rewrite Hd.
    - destruct (extract_no_int _ Hw) as (q & v & ->). rewrite !extract_failed. reflexivity.
    - rewrite (extract_int _ _ _ W1). destruct (extract_no_int _ Hw) as (q & v & ->). rewrite !extract_failed. reflexivity. }
  destruct E as (_ & E & _).
  set (d' := mkDS F64 (ds_set F64 d) (Some (mkGS F64 [] (string_of_list_ascii w) None)) (Some thr)).
  assert (C' : checkDatasetIndex F64 (put_set F64 σ i (Some d')) i = Ok d') by now apply check_put.
  exists (put_set F64 σ i (Some d')), d'. eexists _, _. split; [|split; [now apply has_check|split; [reflexivity|split; [reflexivity|split; [reflexivity|split; [|split; [reflexivity|split; [reflexivity|]]]]]]]].
  - cbn [Api.step]. unfold api_loadGroup. rewrite H. cbn [lift]. rewrite Hf. unfold load_header.
    rewrite (extract_int _ _ _ H1). rewrite (ext_dbl _ _ _ H2), (extract_int _ _ _ H3), (extract_int _ _ _ H4). cbn [init bind Z.eqb Pos.eqb negb].
    rewrite !Z.eqb_refl. cbn [negb lift]. rewrite E. cbn [lift]. reflexivity.
  - intros j e Hj. rewrite !has_check, check_put_other; auto. tauto.
  - cbn [Api.step]. unfold api_info, getDatasetInfo. rewrite C'. reflexivity.
Qed.
Theorem C41_match_after : forall (σ σ' : st) i d p t thr r w m q ix a e qv, has σ i d -> st_files F64 σ p = Some t ->
  header t 1 thr (set_count (ds_set F64 d)) (set_len (ds_set F64 d)) r -> distance_name r w -> ~ In w [T_ "euclidean"; T_ "euclidean_dtw"] ->
  step σ (OpLoadGroup F64 i p) = Exn F64 σ' m -> query_is F64 σ' q ix a e qv -> 2 <= zlen qv <= 2 ^ 26 -> ratio_ok64 (st_ratio F64 σ') (zlen qv) ->
  step σ' (OpMatch F64 i q ix a e) = Bad F64 OutOfBounds.
Proof.
  intros σ σ' i d p t thr r w m q ix a e qv H Hf Hh Hw Hn E Q Hq Hr.
  destruct (C41_unknown_distance σ i d p t thr r w H Hf Hh Hw Hn) as (s & d' & gs & m' & E' & H' & _ & Hg & Hs & _). rewrite E in E'. injection E' as -> _.
  cbn [Api.step]. eapply no_spaces_match; eauto.
Qed.

(** ** C40: saved groups reload as the same grouping. *)
Lemma concat_len {A} (l : list (list A)) : (forall x, In x l -> x <> []) -> zlen l <= zlen (concat l).
Proof.
  induction l as [|x l IH]; intros H; [unfold zlen; cbn; lia|]. cbn [concat]. rewrite zlen_app. specialize (IH (fun y Hy => H y (or_intror Hy))).
  specialize (H x (or_introl eq_refl)). destruct x as [|a x]; [congruence|]. unfold zlen in *. cbn [List.length]. lia.
Qed.
Lemma not_white_word w : forallb (fun c => negb (is_space c)) w = true -> Forall (fun c => ~ white c) w.
Proof.
  intros H. apply Forall_forall. intros c Hc Hw. rewrite forallb_forall in H. apply is_space_iff in Hw. specialize (H c Hc). cbn beta in H. now rewrite Hw in H.
Qed.
Lemma name_dist name : In name [T_ "euclidean"; T_ "euclidean_dtw"] -> exists k, getDistance (string_of_list_ascii name) = Ok k.
Proof. intros [<-|[<-|[]]]; eexists; reflexivity. Qed.
Lemma load_general (σ : st) i d data p t thr name f : dataset F64 σ i d data -> st_files F64 σ p = Some t -> -1 <= set_len (ds_set F64 d) <= 2 ^ 30 ->
  group_file t thr (set_count (ds_set F64 d)) (set_len (ds_set F64 d)) name f -> In name [T_ "euclidean"; T_ "euclidean_dtw"] -> sized (set_len (ds_set F64 d)) f ->
  (step σ (OpLoadGroup F64 i p) = Bad F64 OutOfBounds /\ outside (ds_set F64 d) f) \/
  exists k sp, let gs := mkGS F64 sp (string_of_list_ascii name) (Some k) in
    step σ (OpLoadGroup F64 i p) = Done F64 (put_set F64 σ i (Some (mkDS F64 (ds_set F64 d) (Some gs) (Some thr)))) (VInt F64 (group_total f (set_len (ds_set F64 d)))) /\
    loaded_spaces (ds_set F64 d) f sp.
Proof.
  intros (C & b & D1 & D2 & D3 & D4) Hf Hlen (r & q1 & q2 & q3 & q4 & (r1 & r2 & r3 & H1 & H2 & H3 & H4) & W1 & W2 & W3 & W4) Hn Hsz.
  destruct (name_dist name Hn) as (k & Ek). set (s := ds_set F64 d) in *.
  assert (E0 : step σ (OpLoadGroup F64 i p) = lift F64 σ (global_loadGroups F64 F64_IO s (mkIS r false)) (fun '(gs, x) =>
            let s' := put_set F64 σ i (Some (mkDS F64 s (Some gs) (Some thr))) in match x with inl n => Done F64 s' (VInt F64 n) | inr e => Exn F64 s' e end)).
  { cbn [Api.step]. unfold api_loadGroup. rewrite C. cbn [lift]. rewrite Hf. unfold load_header.
    rewrite (extract_int _ _ _ H1). rewrite (ext_dbl _ _ _ H2), (extract_int _ _ _ H3), (extract_int _ _ _ H4). cbn [init bind Z.eqb Pos.eqb negb]. fold s. rewrite !Z.eqb_refl. reflexivity. }
  rewrite E0. clear E0.
  destruct (global_load_spec s D3 k f r q1 q2 name q3 q4 ltac:(lia) Ek ltac:(lia) Hsz W1 W2 W3 W4) as [(E & Ho)|P].
  - left. rewrite E. auto.
  - destruct (Post_inv _ _ P) as (x & E & sp & -> & Hsp). right. exists k, sp. rewrite E. auto.
Qed.

Lemma holds_of h s data b f sp name k L : set_buf s = Some b -> heap_get F64 h b = Ok data -> 0 <= set_count s -> set_count s * set_len s <= zlen data -> set_len s <= 2 ^ 30 ->
  loaded_spaces s f sp -> sized (set_len s) f -> members_exist (set_count s) (set_len s) f -> listed_once (set_len s) f -> 2 <= L <= set_len s -> holds h s data (mkGS F64 sp name k) L (f L).
Proof.
  intros Hb Hh Hc Hs Hlen (_ & _ & H) Hsz Hme Hlo HL. destruct (H L HL) as (ls & E & Hl). exists ls. split; auto.
  pose proof (lists_links s L ltac:(lia) ls (f L) Hlen Hl (Hlo L HL) (fun v cs Hin c => Hme L v cs c HL Hin)) as Hk.
  pose proof Hl as (_ & _ & _ & Hz & _ & _ & Hg). unfold getNumberOfGroups. split; [exact Hz|].
  intros i g v cs Eg Ev. unfold getGroup in Eg. destruct ((i <? 0) || (getNumberOfGroups F64 ls <=? i)); [discriminate|]. destruct (Hg i g v cs Eg Ev) as (-> & _). cbn [g_count g_centroid].
  split; [reflexivity|]. split; [apply owned_read; [lia|apply (Hsz L v cs HL); eapply zget_in; eauto]|].
  assert (Hm' : zget (map snd (f L)) i = Ok cs).
  { destruct (zget_inv _ _ _ Ev) as (R & Hn). destruct (zget_Ok (map snd (f L)) i) as (x & Ex); [unfold zlen in *; rewrite map_length; lia|]. rewrite Ex. f_equal.
    apply zget_inv in Ex as (_ & Ex). rewrite nth_error_map, Hn in Ex. cbn in Ex. congruence. }
  pose proof (getMembers_links F64 s b Hb Hlen L ltac:(lia) ls _ i cs _ Hk Hm' Eg) as E'. exists (map (view F64 s b L) (rev cs)).
  split; auto. split; [rewrite map_map; rewrite <- (map_id (rev cs)) at 2; apply map_ext; intros c; destruct c; reflexivity|].
  intros t Ht. apply in_map_iff in Ht as (c & <- & Hin). split; [reflexivity|].
  assert (Vc : valid s L c) by (apply (Hme L v cs c HL); [eapply zget_in; eauto|now apply in_rev]).
  rewrite (read_view F64 h s b data Hh) by (auto; lia). reflexivity.
Qed.

(** Any group file whose groups fit the dataset replaces the groups of the dataset by those of the file. *)
Theorem C40_file : forall (σ : st) i d data p t thr name f, dataset F64 σ i d data -> -1 <= set_len (ds_set F64 d) <= 2 ^ 30 -> st_files F64 σ p = Some t ->
  group_file t thr (set_count (ds_set F64 d)) (set_len (ds_set F64 d)) name f -> In name [T_ "euclidean"; T_ "euclidean_dtw"] ->
  sized (set_len (ds_set F64 d)) f -> members_exist (set_count (ds_set F64 d)) (set_len (ds_set F64 d)) f -> listed_once (set_len (ds_set F64 d)) f ->
  exists σ' d' gs, step σ (OpLoadGroup F64 i p) = Done F64 σ' (VInt F64 (group_total f (set_len (ds_set F64 d)))) /\ dataset F64 σ' i d' data /\
    ds_set F64 d' = ds_set F64 d /\ ds_groups F64 d' = Some gs /\ gs_name F64 gs = string_of_list_ascii name /\ ds_thr F64 d' = Some thr /\
    (forall L, 2 <= L <= set_len (ds_set F64 d) -> holds (st_heap F64 σ') (ds_set F64 d) data gs L (f L)) /\
    (forall k e, k <> i -> has σ' k e <-> has σ k e) /\ st_heap F64 σ' = st_heap F64 σ /\ st_ratio F64 σ' = st_ratio F64 σ.
Proof.
  intros σ i d data p t thr name f D Hlen Hf Hg Hn Hsz Hme Hlo. pose proof D as (C & b & D1 & D2 & D3 & D4). pose proof (proj1 (check_inv F64 _ _ _ C)) as Hi.
  destruct (load_general σ i d data p t thr name f D Hf Hlen Hg Hn Hsz) as [(_ & L & v & cs & c & HL & H1 & H2 & H3)|(k & sp & E & Hsp)].
  - exfalso. apply H3. apply (cpos_range (ds_set F64 d) L ltac:(lia)). exact (Hme L v cs c HL H1 H2).
  - set (gs := mkGS F64 sp (string_of_list_ascii name) (Some k)) in *. set (d' := mkDS F64 (ds_set F64 d) (Some gs) (Some thr)) in *.
    exists (put_set F64 σ i (Some d')), d', gs. split; [exact E|]. split; [|split; [reflexivity|split; [reflexivity|split; [reflexivity|split; [reflexivity|split; [|split; [|split; reflexivity]]]]]]].
    + split; [now apply check_put|]. exists b. auto.
    + intros L HL. apply (holds_of _ (ds_set F64 d) data b f); auto. lia.
    + intros j e Hj. rewrite !has_check, check_put_other; auto. tauto.
Qed.

(** Saving a grouped dataset writes such a file. *)
Theorem C40_save : forall (σ : st) i thr t data p gmf, grouped_earlier F64 F64_IO writable σ i thr t data -> writable p = true -> fin64 thr ->
  set_count t < 2 ^ 31 -> set_len t <= 2 ^ 30 -> set_count t * set_len t < 2 ^ 31 -> Forall (prints 16) data ->
  (forall L, 2 <= L <= set_len t -> groups_now F64 σ i t data L (gmf L)) ->
  exists σ1 file thr2 f, step σ (OpSaveGroup F64 i p false) = Done F64 σ1 (VUnit F64) /\ st_files F64 σ1 p = Some file /\
    (forall q, q <> p -> st_files F64 σ1 q = st_files F64 σ q) /\ (forall k e, has σ1 k e <-> has σ k e) /\
    group_file file thr2 (set_count t) (set_len t) (T_ "euclidean") f /\ reread 6 thr thr2 /\
    (forall L, 2 <= L <= set_len t -> written data (set_len t) L (gmf L) (f L)) /\
    -1 <= set_len t /\ sized (set_len t) f /\ members_exist (set_count t) (set_len t) f /\ listed_once (set_len t) f.
Proof.
  intros σ i thr t data p gmf G Hp Ft Hcm Hlen Hsz Hpr Hnow.
  destruct (earlier_ready F64 F64_IO writable fin64 pos64 σ i thr t data G ltac:(lia) (half64_lt_inf thr Ft)) as (W & gmf' & d & R & Et & Eth).
  assert (Eg : forall L, 2 <= L <= set_len t -> gmf L = gmf' L). { intros L HL. subst t. apply (ready_now F64 σ i d data gmf' L (gmf L) R HL). now apply Hnow. }
  pose proof R as (C & _ & b & gs & B1 & B2 & B3 & B4 & B5 & B6 & B7 & B8). subst t. set (t := ds_set F64 d) in *.
  assert (Hl0 : 0 <= set_len t + 1) by (destruct B6 as (B6 & _); pose proof (zlen_nonneg (gs_spaces F64 gs)); lia).
  assert (Hgm : forall L, 2 <= L <= set_len t -> (forall ms, In ms (gmf' L) -> ms <> []) /\ NoDup (concat (gmf' L)) /\ (forall c, In c (concat (gmf' L)) -> valid t L c)).
  { intros L HL. split; [|split].
    - intros ms Hms. exact (proj1 (ready_members F64 σ i d data gmf' R L ms HL Hms)).
    - destruct (proj2 B6 L HL) as (ls & _ & Hls). apply Hls.
    - intros c Hc'. apply B7; auto. }
  assert (Hin : forall L ms c, In ms (gmf' L) -> In c ms -> In c (concat (gmf' L))) by (intros; apply in_concat; eauto).
  destruct (file_reads t ltac:(lia) Hlen Hsz thr (T_ "euclidean") (vals F64 t data) gmf' Ft) as (thr2 & Hthr & Hfile).
  { discriminate. }
  { apply not_white_word. reflexivity. }
  { exact Hl0. }
  { intros L HL. destruct (Hgm L HL) as (H1 & H2 & H3). split.
    - pose proof (concat_len _ H1) as X. pose proof (int_bound t ltac:(lia) ltac:(lia) ltac:(lia) L ltac:(lia) _ H2 H3). lia.
    - intros ms Hms. split; [apply in_zget in Hms as (k & Hk & E); exact (NoDup_part _ _ _ H2 E)|]. split; auto. intros c Hc. split; [eauto|].
      apply Forall_forall. intros x Hx. rewrite Forall_forall in Hpr. apply Hpr. eapply in_slice; eauto. }
  set (file := (print_Z 1 ++ [sp] ++ print_g 6 thr ++ [sp] ++ print_Z (set_count t) ++ [sp] ++ print_Z (set_len t) ++ [nl]) ++ file_text "euclidean" (vals F64 t data) gmf' (set_len t)).
  exists (with_file F64 σ p file), file, thr2, (file_groups (vals F64 t data) gmf'). split; [|split; [|split; [|split; [|split; [exact Hfile|split; [exact Hthr|split; [|split; [lia|split; [|split]]]]]]]]].
  - cbn [Api.step]. unfold api_saveGroup. rewrite C. cbn [lift]. rewrite B5, Hp, Eth. cbn [negb lift init].
    rewrite (global_text_saved (st_heap F64 σ) t b data B2 Hlen B4 gmf' gs B6). cbn [lift]. rewrite B8. reflexivity.
  - unfold with_file. cbn. now rewrite String.eqb_refl.
  - intros q Hq. unfold with_file. cbn. destruct (String.eqb_spec q p); [contradiction|reflexivity].
  - intros k e. tauto.
  - intros L HL. rewrite (Eg L HL). split; [unfold file_groups, zlen; now rewrite map_length|]. intros k ms v cs Hm Hv. unfold file_groups in Hv.
    apply zget_inv in Hv as (_ & Hv). pose proof (zget_in _ _ _ Hm) as Hms. apply zget_inv in Hm as (_ & Hm). assert (Ev : Some (map rr (vals F64 t data L (hd (0, 0) ms)), rev ms) = Some (v, cs)) by (rewrite <- Hv; symmetry; exact (map_nth_error _ _ _ Hm)). change (num F64) with spec_float in *.
    assert (E1 : v = map rr (vals F64 t data L (hd (0, 0) ms))) by congruence. assert (E2 : cs = rev ms) by congruence. split; auto. subst v. split; [unfold zlen; now rewrite map_length|].
    intros j x y Hx Hy. apply zget_inv in Hy as (_ & Hy). pose proof (zget_in _ _ _ Hx) as Hxi. apply zget_inv in Hx as (_ & Hx). 
    assert (Ey : Some (rr x) = Some y) by (rewrite <- Hy; symmetry; exact (map_nth_error _ _ _ Hx)). injection Ey as <-.
    apply (rr_reads x [] []); auto. rewrite Forall_forall in Hpr. apply Hpr. eapply in_slice; eauto.
  - intros L v cs HL Hv. apply in_map_iff in Hv as (ms & E & Hms). injection E as <- <-. change (num F64) with spec_float in *. unfold zlen. rewrite map_length. destruct (Hgm L HL) as (H1 & H2 & H3).
    refine (vals_len F64 t data _ L _ (hd (0, 0) ms) _); auto; [lia|]. apply H3. apply (Hin L ms); auto. apply hd_in. auto.
  - intros L v cs c HL Hv Hc. apply in_map_iff in Hv as (ms & E & Hms). injection E as <- <-. apply in_rev in Hc. apply (Hgm L HL). eauto.
  - intros L HL. unfold file_groups. rewrite map_map. cbn [snd]. destruct (Hgm L HL) as (_ & H2 & _). clear - H2. induction (gmf' L) as [|ms gm IH]; cbn; auto. cbn in H2.
    assert (P : Permutation.Permutation (ms ++ concat gm) (rev ms ++ concat (map (fun x => rev x) gm))).
    { apply Permutation.Permutation_app; [apply Permutation.Permutation_rev|]. clear. induction gm as [|x gm IH]; cbn; auto. apply Permutation.Permutation_app; [apply Permutation.Permutation_rev|exact IH]. }
    exact (Permutation.Permutation_NoDup P H2).
Qed.

(** Both together: the saved file, loaded into a dataset of the same dimensions. *)
Theorem C40_reload : forall (σ : st) i thr t data p gmf, grouped_earlier F64 F64_IO writable σ i thr t data -> writable p = true -> fin64 thr ->
  set_count t < 2 ^ 31 -> set_len t <= 2 ^ 30 -> set_count t * set_len t < 2 ^ 31 -> Forall (prints 16) data ->
  (forall L, 2 <= L <= set_len t -> groups_now F64 σ i t data L (gmf L)) ->
  exists σ1 file, step σ (OpSaveGroup F64 i p false) = Done F64 σ1 (VUnit F64) /\ st_files F64 σ1 p = Some file /\
    forall (σ' : st) j dj data', st_files F64 σ' p = Some file -> dataset F64 σ' j dj data' ->
      set_count (ds_set F64 dj) = set_count t -> set_len (ds_set F64 dj) = set_len t ->
      exists σ2 d2 gs thr2 f, step σ' (OpLoadGroup F64 j p) = Done F64 σ2 (VInt F64 (group_total gmf (set_len t))) /\ dataset F64 σ2 j d2 data' /\
        ds_set F64 d2 = ds_set F64 dj /\ ds_groups F64 d2 = Some gs /\ gs_name F64 gs = "euclidean"%string /\ ds_thr F64 d2 = Some thr2 /\ reread 6 thr thr2 /\
        (forall L, 2 <= L <= set_len t -> written data (set_len t) L (gmf L) (f L) /\ holds (st_heap F64 σ2) (ds_set F64 dj) data' gs L (f L)) /\
        (forall k e, k <> j -> has σ2 k e <-> has σ' k e) /\ st_heap F64 σ2 = st_heap F64 σ' /\ st_ratio F64 σ2 = st_ratio F64 σ'.
Proof.
  intros σ i thr t data p gmf G Hp Ft Hcm Hlen Hsz Hpr Hnow.
  destruct (C40_save σ i thr t data p gmf G Hp Ft Hcm Hlen Hsz Hpr Hnow) as (σ1 & file & thr2 & f & E & Ef & _ & _ & Hg & Hthr & Hw & Hl & F1 & F2 & F3).
  exists σ1, file. split; auto. split; auto. intros σ' j dj data' Hf D Hc Hl'. rewrite <- Hl', <- Hc in *.
  destruct (C40_file σ' j dj data' p file thr2 (T_ "euclidean") f D ltac:(lia) Hf Hg (or_introl eq_refl) F1 F2 F3) as (σ2 & d2 & gs & E2 & D2 & X1 & X2 & X3 & X4 & X5 & X6 & X7 & X8).
  exists σ2, d2, gs, thr2, f. replace (group_total gmf (set_len (ds_set F64 dj))) with (group_total f (set_len (ds_set F64 dj))); [now auto 20|].
  unfold group_total. f_equal. apply map_ext_in. intros L HL. apply lengths_in in HL. apply (Hw L HL).
Qed.
Theorem C40_printable : forall x, fin64 x -> (Rabs (val x) <= IZR (1797693134862315 * 10 ^ 293))%R -> prints 16 x.
Proof. exact prints_16. Qed.

(** ** C43: malformed group files. *)
(** A member outside the table of members. *)
Theorem C43_out_of_range : forall (σ : st) i d data p t thr name f, dataset F64 σ i d data -> -1 <= set_len (ds_set F64 d) <= 2 ^ 30 -> st_files F64 σ p = Some t ->
  group_file t thr (set_count (ds_set F64 d)) (set_len (ds_set F64 d)) name f -> In name [T_ "euclidean"; T_ "euclidean_dtw"] ->
  sized (set_len (ds_set F64 d)) f -> member_outside (set_count (ds_set F64 d)) (set_len (ds_set F64 d)) f ->
  step σ (OpLoadGroup F64 i p) = Bad F64 OutOfBounds.
Proof.
  intros σ i d data p t thr name f D Hlen Hf Hg Hn Hsz (L & v & cs & c & HL & H1 & H2 & H3).
  destruct (load_general σ i d data p t thr name f D Hf Hlen Hg Hn Hsz) as [(E & _)|(k & sp & _ & _ & _ & Hsp)]; auto.
  exfalso. destruct (Hsp L HL) as (ls & _ & _ & _ & _ & _ & _ & Hin & _). apply H3. exact (Hin v cs c H1 H2).
Qed.
(** A member listed twice: the file loads, and then every walk over the members of that group is endless. *)
Theorem C43_duplicate : forall (σ : st) i d data p t thr name f L k v cs, dataset F64 σ i d data -> set_len (ds_set F64 d) <= 2 ^ 30 -> st_files F64 σ p = Some t ->
  group_file t thr (set_count (ds_set F64 d)) (set_len (ds_set F64 d)) name f -> In name [T_ "euclidean"; T_ "euclidean_dtw"] ->
  sized (set_len (ds_set F64 d)) f -> members_exist (set_count (ds_set F64 d)) (set_len (ds_set F64 d)) f ->
  2 <= L <= set_len (ds_set F64 d) -> zget (f L) k = Ok (v, cs) -> ~ NoDup cs -> (forall k' v' cs' c, k < k' -> zget (f L) k' = Ok (v', cs') -> In c cs -> ~ In c cs') ->
  exists σ' d' gs ls g, step σ (OpLoadGroup F64 i p) = Done F64 σ' (VInt F64 (group_total f (set_len (ds_set F64 d)))) /\ has σ' i d' /\ ds_groups F64 d' = Some gs /\
    zget (gs_spaces F64 gs) L = Ok (Some ls) /\ getGroup F64 ls k = Ok g /\
    (forall n, exists c, back (ls_map F64 ls) (set_len (ds_set F64 d) - L + 1) n (g_last F64 g) = Ok c /\ In c cs) /\
    getMembers F64 (ds_set F64 d') (ls_map F64 ls) g = NoFuel /\
    (forall ratio q r, group_getBestMatch F64 (st_heap F64 σ') ratio (ds_set F64 d') (ls_map F64 ls) g q <> Ok r) /\
    forall p', writable p' = true -> step σ' (OpSaveGroup F64 i p' false) = Hang F64.
Proof.
  intros σ i d data p t thr name f L k v cs D Hlen Hf Hg Hn Hsz Hme HL Ek Hd Hap. pose proof D as (C & b & D1 & D2 & D3 & D4). pose proof (proj1 (check_inv F64 _ _ _ C)) as Hi.
  destruct (load_general σ i d data p t thr name f D Hf ltac:(lia) Hg Hn Hsz) as [(_ & L' & v' & cs' & c & HL' & H1 & H2 & H3)|(kd & sp & E & Hsp)].
  { exfalso. apply H3. apply (cpos_range (ds_set F64 d) L' ltac:(lia)). exact (Hme L' v' cs' c HL' H1 H2). }
  pose proof Hsp as (_ & _ & Hs). destruct (Hs L HL) as (ls & Els & Hl). pose proof Hl as (_ & _ & _ & Hz & _). pose proof (zget_inv _ _ _ Ek) as (Rk & _).
  destruct (zget_Ok (ls_groups F64 ls) k) as (g & Eg); [change (num F64) with spec_float in *; lia|].
  assert (Hin : In (v, cs) (f L)) by (eapply zget_in; eauto).
  destruct (dup_group (ds_set F64 d) b D1 ltac:(lia) L ltac:(lia) ls (f L) k g v cs (st_heap F64 σ) (fun t => Ok t) Hl Eg Ek) as (X1 & X2 & X3 & X4); auto.
  { intros c Hc. exact (Hme L v cs c HL Hin Hc). }
  { intros k' v' cs' Hk' E' c Hc. split; [exact (Hme L v' cs' c HL (zget_in _ _ _ E') Hc)|]. intros Hc'. exact (Hap k' v' cs' c Hk' E' Hc' Hc). }
  specialize (X4 (Hsz L v cs HL Hin)). assert (X5 : saveGroup F64 F64_IO (st_heap F64 σ) (ls_map F64 ls) g = NoFuel) by (destruct (saveGroup _ _ _ _ _); cbn in X4; congruence).
  set (gs := mkGS F64 sp (string_of_list_ascii name) (Some kd)) in *. set (d' := mkDS F64 (ds_set F64 d) (Some gs) (Some thr)) in *.
  exists (put_set F64 σ i (Some d')), d', gs, ls, g. split; [exact E|]. split; [apply has_check; now apply check_put|]. split; [reflexivity|]. cbn [gs_spaces]. split; [exact Els|].
  split; [unfold getGroup, getNumberOfGroups; destruct (Z.ltb_spec k 0); [lia|]; destruct (Z.leb_spec (zlen (ls_groups F64 ls)) k); [change (num F64) with spec_float in *; lia|]; exact Eg|].
  split; [exact X1|]. split; [exact X2|]. split; [exact X3|]. intros p' Hp'. cbn [Api.step]. unfold api_saveGroup. rewrite check_put by auto. cbn [lift]. change (ds_groups F64 d') with (Some gs). change (ds_thr F64 d') with (Some thr). cbv iota. rewrite Hp'. cbn [negb init lift].
  change (st_heap F64 (put_set F64 σ i (Some d'))) with (st_heap F64 σ). rewrite (global_hang (ds_set F64 d) f gs (st_heap F64 σ) L ls k g Hsp Hsz HL Els Eg X5). reflexivity.
Qed.
End GroupFile.

(** ** Cases. *)
Lemma skip_split t : exists ws, t = ws ++ skip_space t /\ Forall white ws /\ (forall c r, skip_space t = c :: r -> ~ white c).
Proof.
  induction t as [|c t (ws & E & W & N)]; [exists []; cbn; split; auto; split; auto; discriminate|]. cbn [skip_space]. destruct (is_space c) eqn:Hc.
  - exists (c :: ws). cbn [app]. rewrite <- E. split; auto. split; auto. constructor; auto. now apply is_space_iff.
  - exists []. split; auto. split; auto. intros c' r E'. injection E' as <- _. intros Hw. apply is_space_iff in Hw. congruence.
Qed.
Lemma take_split t : t = fst (take_word t) ++ snd (take_word t) /\ Forall (fun c => ~ white c) (fst (take_word t)) /\
  (snd (take_word t) = [] \/ exists c r, snd (take_word t) = c :: r /\ white c).
Proof.
  induction t as [|c t (E & F & S)]; [cbn; auto|]. cbn [take_word]. destruct (is_space c) eqn:Hc.
  - cbn. split; auto. split; auto. right. exists c, t. split; auto. now apply is_space_iff.
  - destruct (take_word t) as (w & r). cbn [fst snd app] in *. rewrite <- E. split; auto. split; auto. constructor; auto. intros Hw. apply is_space_iff in Hw. congruence.
Qed.
Definition word1 (t : text) : text := fst (take_word (skip_space t)).
Definition rest1 (t : text) : text := snd (take_word (skip_space t)).
Lemma fw_dec t w : w = word1 t -> w <> [] -> first_word t w (rest1 t).
Proof.
  intros -> Hn. destruct (skip_split t) as (ws & E & W & _). destruct (take_split (skip_space t)) as (E2 & F & S). exists ws. split; [unfold word1, rest1; now rewrite <- E2|]. auto.
Qed.
Lemma fi_dec t z : print_Z z = word1 t -> - 2 ^ 31 <= z < 2 ^ 31 -> first_int t z (rest1 t).
Proof. intros E H. exists (print_Z z). split; [apply fw_dec; auto; apply (int_word z)|]. split; auto using print_Z_spec. Qed.
Lemma prints_Z z P : P = 6 \/ P = 16 -> Z.abs z <= 2 ^ 53 -> prints P (f64_ofZ z).
Proof.
  intros HP Hz. destruct (ofZ_exact z Hz) as (F & V). destruct HP as [->| ->]; [now apply prints_6|]. apply prints_16; auto. rewrite V, <- abs_IZR. apply IZR_le. apply Z.le_trans with (1 := Hz). vm_compute. discriminate.
Qed.
Lemma fd_dec P t x : 1 <= P -> prints P x -> print_g P x = word1 t -> match rest1 t with [] => False | _ => True end -> exists y, first_double t y (rest1 t) /\ reread P x y.
Proof.
  intros HP (F & B) E Hr. destruct (skip_split t) as (ws & E1 & W & _). destruct (take_split (skip_space t)) as (E2 & _ & S). fold (word1 t) (rest1 t) in *. destruct S as [S|(c & r & S & Hc)]; [rewrite S in Hr; destruct Hr|].
  destruct (first_double_printed P ws x c r HP W Hc F B) as (y & Dy & Fy). exists y. split; [|exact Dy]. rewrite E, <- S, <- E2, <- E1 in Fy. exact Fy.
Qed.
Lemma rd_dec t x : prints 16 x -> print_g 16 x = word1 t -> match rest1 t with [] => False | _ => True end -> first_double t (rr x) (rest1 t).
Proof.
  intros Hp E Hr. destruct (fd_dec 16 t x ltac:(lia) Hp E Hr) as (y & Fy & Dy). destruct (rr_reads x [] [] Hp (Forall_nil _)) as (_ & Dr). now rewrite (double_of_unique _ _ _ _ Dr Dy).
Qed.

(** Two series of length 2 and a group file. *)
Definition file_st (t : text) : Api.st F64 :=
  mkSt F64 [Some (map f64_ofZ [0; 1; 5; 6])] [Some (mkDS F64 (mkSet (Some 0%nat) 2 2 "ex" false) None None)] 1 (nzero F64) false (fun p => if String.eqb p "g" then Some t else None).
Definition file_ds : dset F64 := mkDS F64 (mkSet (Some 0%nat) 2 2 "ex" false) None None.
Lemma file_dataset t : dataset F64 (file_st t) 0 file_ds (map f64_ofZ [0; 1; 5; 6]).
Proof. split; [reflexivity|]. exists 0%nat. repeat split; cbn; lia. Qed.
Lemma file_has t : has_dataset F64 (file_st t) 0 file_ds.
Proof. split; [lia|reflexivity]. Qed.
Lemma header_dec t v thr cnt len : prints 6 thr -> - 2 ^ 31 <= v < 2 ^ 31 -> - 2 ^ 31 <= cnt < 2 ^ 31 -> - 2 ^ 31 <= len < 2 ^ 31 ->
  print_Z v = word1 t -> print_g 6 thr = word1 (rest1 t) -> print_Z cnt = word1 (rest1 (rest1 t)) -> print_Z len = word1 (rest1 (rest1 (rest1 t))) ->
  match rest1 (rest1 t) with [] => False | _ => True end -> exists y, header t v y cnt len (rest1 (rest1 (rest1 (rest1 t)))) /\ reread 6 thr y.
Proof.
  intros Ht Hv Hc Hl E1 E2 E3 E4 Hr. destruct (fd_dec 6 (rest1 t) thr ltac:(lia) Ht E2 Hr) as (y & Fy & Dy). exists y. split; auto.
  exists (rest1 t), (rest1 (rest1 t)), (rest1 (rest1 (rest1 t))). split; [now apply fi_dec|]. split; auto. split; now apply fi_dec.
Qed.

Example C41_version_case : has_dataset F64 (file_st (T_ "2 1 2 2")) 0 file_ds /\ st_files F64 (file_st (T_ "2 1 2 2")) "g" = Some (T_ "2 1 2 2") /\
  exists r, first_int (T_ "2 1 2 2") 2 r /\ 2 <> 1.
Proof. split; [apply file_has|]. split; [reflexivity|]. eexists. split; [apply fi_dec; [vm_compute; reflexivity|lia]|lia]. Qed.
Example C41_not_a_number_case : has_dataset F64 (file_st (T_ "x y")) 0 file_ds /\ first_word (T_ "x y") ("x"%char :: []) (T_ " y") /\ ~ digit "x" /\ ~ In "x"%char ["+"; "-"]%char.
Proof.
  split; [apply file_has|]. split; [apply (fw_dec (T_ "x y")); [reflexivity|discriminate]|]. split; [unfold digit; cbn; lia|]. intros [H|[H|[]]]; discriminate H.
Qed.
Example C41_count_case : exists thr r, header (T_ "1 4 3 2 ") 1 thr 3 2 r /\ 3 <> set_count (ds_set F64 file_ds).
Proof.
  destruct (header_dec (T_ "1 4 3 2 ") 1 (f64_ofZ 4) 3 2) as (y & H & _); [apply prints_Z; [auto|lia]|lia|lia|lia|vm_compute; reflexivity|vm_compute; reflexivity|vm_compute; reflexivity|vm_compute; reflexivity|vm_compute; exact I|].
  eexists y, _. split; [exact H|]. cbn. lia.
Qed.
Example C41_length_case : exists thr r, header (T_ "1 4 2 3 ") 1 thr (set_count (ds_set F64 file_ds)) 3 r /\ 3 <> set_len (ds_set F64 file_ds).
Proof.
  destruct (header_dec (T_ "1 4 2 3 ") 1 (f64_ofZ 4) 2 3) as (y & H & _); [apply prints_Z; [auto|lia]|lia|lia|lia|vm_compute; reflexivity|vm_compute; reflexivity|vm_compute; reflexivity|vm_compute; reflexivity|vm_compute; exact I|].
  eexists y, _. split; [exact H|]. cbn. lia.
Qed.
Example C41_blank_file_case : has_dataset F64 (file_st [nl; sp]) 0 file_ds /\ Forall white [nl; sp].
Proof. split; [apply file_has|]. apply Forall_cons; [apply white_nl|]. apply Forall_cons; [apply white_sp|apply Forall_nil]. Qed.
Example C41_unknown_distance_case : exists thr r, header (T_ "1 4 2 2 2 3 manhattan ") 1 thr (set_count (ds_set F64 file_ds)) (set_len (ds_set F64 file_ds)) r /\
  distance_name r (T_ "manhattan") /\ ~ In (T_ "manhattan") [T_ "euclidean"; T_ "euclidean_dtw"].
Proof.
  destruct (header_dec (T_ "1 4 2 2 2 3 manhattan ") 1 (f64_ofZ 4) 2 2) as (y & H & _); [apply prints_Z; [auto|lia]|lia|lia|lia|vm_compute; reflexivity|vm_compute; reflexivity|vm_compute; reflexivity|vm_compute; reflexivity|vm_compute; exact I|].
  eexists y, _. split; [exact H|]. split; [|intros [E|[E|[]]]; discriminate E]. left. exists 2, 3. eexists _, _, _. split; [apply fi_dec; [vm_compute; reflexivity|lia]|].
  split; [apply fi_dec; [vm_compute; reflexivity|lia]|]. apply fw_dec; [vm_compute; reflexivity|discriminate].
Qed.
Example C41_no_int_case : no_int (T_ "-9999999999 3 euclidean ") /\ no_int (T_ "9999999999 3 euclidean ") /\ no_int (T_ "two 3 euclidean ").
Proof.
  split; [|split]; right; [left|left|right].
  - eexists _, _, (-9999999999). split; [apply fw_dec; [vm_compute; reflexivity|discriminate]|]. split; [|lia].
    exists true, ["-"%char], (T_ "9999999999"). split; [reflexivity|]. split; [reflexivity|]. split; [discriminate|]. split; [|reflexivity]. repeat constructor; unfold digit; cbn; lia.
  - eexists _, _, 9999999999. split; [apply fw_dec; [vm_compute; reflexivity|discriminate]|]. split; [|lia].
    exists false, [], (T_ "9999999999"). split; [reflexivity|]. split; [now left|]. split; [discriminate|]. split; [|reflexivity]. repeat constructor; unfold digit; cbn; lia.
  - exists "t"%char, (T_ "wo"). eexists _. split; [apply fw_dec; [vm_compute; reflexivity|discriminate]|]. split; [unfold digit; cbn; lia|]. intros [Q|[Q|[]]]; discriminate Q.
Qed.

(** One group of length 2 with the given members. *)
Definition one_group (cs : list coord) (L : Z) : list (list spec_float * list coord) := if L =? 2 then [(map rr (map f64_ofZ [5; 6]), cs)] else [].
Ltac int_tac := apply fi_dec; [vm_compute; reflexivity|vm_compute; split; [discriminate|reflexivity]].
Ltac file_tac t := let y := fresh "y" in let H := fresh "H" in
  destruct (header_dec t 1 (f64_ofZ 4) 2 2) as (y & H & _); [apply prints_Z; [auto|lia]|lia|lia|lia|vm_compute; reflexivity|vm_compute; reflexivity|vm_compute; reflexivity|vm_compute; reflexivity|vm_compute; exact I|];
  exists y; eexists _, _, _, _, _; split; [exact H|]; split; [int_tac|]; split; [int_tac|]; split; [apply fw_dec; [vm_compute; reflexivity|discriminate]|];
  change (lengths 2) with [2]; eexists; split; [|reflexivity]; eexists; split; [int_tac|]; eexists; split; [|reflexivity]; eexists _, _; cbn [fst snd]; split;
  [cbn [map reads]; eexists; split; [apply rd_dec; [apply prints_Z; [auto|lia]|vm_compute; reflexivity|vm_compute; exact I]|];
   eexists; split; [apply rd_dec; [apply prints_Z; [auto|lia]|vm_compute; reflexivity|vm_compute; exact I]|reflexivity]|];
  split; [int_tac|]; cbn [reads]; repeat (eexists; split; [eexists; split; int_tac|]); reflexivity.
Lemma one_sized cs : sized 2 (one_group cs).
Proof. intros L v c HL H. unfold one_group in H. destruct (Z.eqb_spec L 2); [|destruct H]. destruct H as [E|[]]. injection E as <- _. subst L. reflexivity. Qed.
Definition ok_file : text := T_ "1 4 2 2" ++ [nl] ++ T_ "2 3" ++ [nl] ++ T_ "euclidean" ++ [nl] ++ T_ "1" ++ [nl] ++ T_ "5 6 " ++ [nl] ++ T_ "2 1 0 0 0 " ++ [nl].
Definition dup_file : text := T_ "1 4 2 2" ++ [nl] ++ T_ "2 3" ++ [nl] ++ T_ "euclidean" ++ [nl] ++ T_ "1" ++ [nl] ++ T_ "5 6 " ++ [nl] ++ T_ "3 1 0 0 0 1 0 " ++ [nl].
Definition far_file : text := T_ "1 4 2 2" ++ [nl] ++ T_ "2 3" ++ [nl] ++ T_ "euclidean" ++ [nl] ++ T_ "1" ++ [nl] ++ T_ "5 6 " ++ [nl] ++ T_ "1 7 0 " ++ [nl].
Example C40_file_case : dataset F64 (file_st ok_file) 0 file_ds (map f64_ofZ [0; 1; 5; 6]) /\ st_files F64 (file_st ok_file) "g" = Some ok_file /\
  (exists thr, group_file ok_file thr 2 2 (T_ "euclidean") (one_group [(1, 0); (0, 0)])) /\ sized 2 (one_group [(1, 0); (0, 0)]) /\
  members_exist 2 2 (one_group [(1, 0); (0, 0)]) /\ listed_once 2 (one_group [(1, 0); (0, 0)]).
Proof.
  split; [apply file_dataset|]. split; [reflexivity|]. split; [file_tac ok_file|]. split; [apply one_sized|]. split.
  - intros L v cs c HL H Hc. unfold one_group in H. destruct (Z.eqb_spec L 2); [|lia]. destruct H as [E|[]]. injection E as _ <-. subst L. unfold is_sub. destruct Hc as [<-|[<-|[]]]; cbn; lia.
  - intros L HL. unfold one_group. destruct (Z.eqb_spec L 2); [|lia]. cbn. repeat constructor; cbn; intuition congruence.
Qed.
Example C43_duplicate_case : dataset F64 (file_st dup_file) 0 file_ds (map f64_ofZ [0; 1; 5; 6]) /\ st_files F64 (file_st dup_file) "g" = Some dup_file /\
  (exists thr, group_file dup_file thr 2 2 (T_ "euclidean") (one_group [(1, 0); (0, 0); (1, 0)])) /\ sized 2 (one_group [(1, 0); (0, 0); (1, 0)]) /\
  members_exist 2 2 (one_group [(1, 0); (0, 0); (1, 0)]) /\ exists v, zget (one_group [(1, 0); (0, 0); (1, 0)] 2) 0 = Ok (v, [(1, 0); (0, 0); (1, 0)]) /\ ~ NoDup [(1, 0); (0, 0); (1, 0)] /\
  forall k' v' cs', 0 < k' -> zget (one_group [(1, 0); (0, 0); (1, 0)] 2) k' <> Ok (v', cs').
Proof.
  split; [apply file_dataset|]. split; [reflexivity|]. split; [file_tac dup_file|]. split; [apply one_sized|]. split.
  - intros L v cs c HL H Hc. unfold one_group in H. destruct (Z.eqb_spec L 2); [|lia]. destruct H as [E|[]]. injection E as _ <-. subst L. unfold is_sub. destruct Hc as [<-|[<-|[<-|[]]]]; cbn; lia.
  - eexists. split; [reflexivity|]. split.
    + intros H. inversion H as [|? ? Hn _]. apply Hn. cbn. auto.
    + intros k' v' cs' Hk E. apply zget_inv in E as (E & _). unfold one_group, zlen in E. cbn in E. lia.
Qed.
Example C43_out_of_range_case : (exists thr, group_file far_file thr 2 2 (T_ "euclidean") (one_group [(7, 0)])) /\ sized 2 (one_group [(7, 0)]) /\ member_outside 2 2 (one_group [(7, 0)]).
Proof.
  split; [file_tac far_file|]. split; [apply one_sized|]. exists 2. eexists _, _, (7, 0). split; [lia|]. split; [left; reflexivity|]. split; [left; reflexivity|]. cbn. lia.
Qed.
Example C40_case : exists σ gmf, grouped_earlier F64 F64_IO (fun _ => true) σ 0 (f64_ofZ 1) ex_set (map f64_ofZ ex_ints) /\ fin64 (f64_ofZ 1) /\ Forall (prints 16) (map f64_ofZ ex_ints) /\
  forall L, 2 <= L <= set_len ex_set -> groups_now F64 σ 0 ex_set (map f64_ofZ ex_ints) L (gmf L).
Proof.
  destruct (ex_earlier F64 F64_IO (fun _ => true) fin64 pos64 f64_ofZ (f64_ofZ 1)) as (σ & G & _); [vm_compute; reflexivity|]. exists σ.
  destruct (earlier_ready F64 F64_IO (fun _ => true) fin64 pos64 σ 0 (f64_ofZ 1) _ _ G ltac:(cbn; lia) (half64_lt_inf _ (proj1 (ofZ_exact 1 ltac:(lia))))) as (W & gmf & d & R & Et & Eth).
  exists gmf. split; auto. split; [apply ofZ_exact; lia|]. split.
  - apply Forall_forall. intros x Hx. apply in_map_iff in Hx as (z & <- & Hz). apply prints_Z; auto. unfold ex_ints in Hz. cbn in Hz. lia.
  - intros L HL. rewrite <- Et in *. now apply (ready_now F64 σ 0 d _ gmf L (gmf L) R HL).
Qed.

(** The largest double: its 16 digits read as an infinity, and the file that a save wrote cannot be loaded. *)
Definition max_data : list spec_float := max_finite false :: map f64_ofZ [0; 0; 0; 0; 0; 0; 0; 0; 0].
Definition max_ds : dset F64 := mkDS F64 (mkSet (Some 0%nat) 5 2 "ex" false) None None.
Definition max_st : Api.st F64 := mkSt F64 [Some max_data] [Some max_ds] 1 (nzero F64) false (fun _ => None).
Definition max_run : option (ub + Z) :=
  match run F64 F64_IO (fun _ => true) max_st [OpGroup F64 0 (f64_ofZ 1) (fun _ => false); OpSaveGroup F64 0 "g" false] with
  | Some σ => match step F64 F64_IO (fun _ => true) σ (OpLoadGroup F64 0 "g") with Bad _ u => Some (inl u) | Done _ _ (VInt _ n) => Some (inr n) | _ => None end
  | None => None end.
Theorem C40_largest_witness : exists (σ σ' : Api.st F64) d data, dataset F64 σ 0 d data /\ Forall fin64 data /\
  run F64 F64_IO (fun _ => true) σ [OpGroup F64 0 (f64_ofZ 1) (fun _ => false); OpSaveGroup F64 0 "g" false] = Some σ' /\
  step F64 F64_IO (fun _ => true) σ' (OpLoadGroup F64 0 "g") = Bad F64 Uninit.
Proof.
  assert (H : max_run = Some (inl Uninit)) by (vm_compute; reflexivity). unfold max_run in H.
  destruct (run F64 F64_IO (fun _ => true) max_st _) as [σ'|] eqn:E; [|discriminate H]. exists max_st, σ', max_ds, max_data.
  split; [split; [reflexivity|]; exists 0%nat; repeat split; cbn; lia|]. split; [repeat (apply Forall_cons; [apply fin64b_spec; vm_compute; reflexivity|]); apply Forall_nil|]. split; [exact E|].
  destruct (step F64 F64_IO (fun _ => true) σ' (OpLoadGroup F64 0 "g")) as [x [| | | | |]|x e|u|]; try discriminate H. injection H as <-. reflexivity.
Qed.
