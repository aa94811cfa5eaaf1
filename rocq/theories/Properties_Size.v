(** * Property C61: group files that hold only the sizes of the groups, and access to single groups.

    [size_file] and [sizes] are defined in SizeSpec.v, [with_groups] and [threshold_is] in ReloadSpec.v, [header] and [reread] in
    GroupFileSpec.v. *)
From Coq Require Import ZArith Bool Lia Reals SpecFloat Ascii String List.
From Verif Require Import Outcome Num Lemire Distance TimeSeries Text Dataset Groups Api Laws F64Base F64Laws DecSpec NumSpec GroupFileSpec SizeSpec StreamProofs SaveProofs GroupFileProofs.
From Verif Require Import TsProofs GroupSpec GroupProofs GlobalGroup MatchProofs SessionProofs SessionMatch RepMatch LoadedMatch LoadedSpec ReloadSpec ReloadProofs GroupFacts.
From Verif Require Import Properties_Groups Properties_Match Properties_Api Properties_Data Properties_GroupFile Properties_Digits Properties_Loaded Properties_Reload.
Import ListNotations.
Open Scope Z_scope.

Local Notation gl_t := (list (list spec_float * list coord)).
Definition stext (gl : gl_t) : text := print_Z (zlen gl) ++ [nl] ++ flat_map (fun z => print_Z z ++ [sp]) (sizes gl) ++ [nl].
Definition sspaces (gf : Z -> gl_t) (n : Z) : text := flat_map (fun L => stext (gf L)) (lengths n).

Section Text.
Context (h : heap F64) (s : tset) (b : nat).

Lemma local_sizes L ls (gl : gl_t) : lists F64 h s b L ls gl -> local_saveGroups F64 F64_IO h ls true = Ok (stext gl).
Proof.
  intros H. pose proof (lists_len F64 h s b L ls gl H) as Hz. unfold local_saveGroups, stext. f_equal.
  assert (E : map (g_count F64) (ls_groups F64 ls) = sizes gl).
  { unfold sizes. apply zlist_ext; [unfold zlen in *; rewrite !map_length; exact Hz|]. intros i x y Hx Hy.
    apply zget_inv in Hx as (Ri & Hx). apply zget_inv in Hy as (_ & Hy). rewrite nth_error_map in Hx, Hy.
    destruct (nth_error (ls_groups F64 ls) (Z.to_nat i)) as [g|] eqn:Eg; [|discriminate]. destruct (nth_error gl (Z.to_nat i)) as [(v, cs)|] eqn:Ev; [|pose proof (eq_trans (f_equal (option_map (fun g => zlen (snd g))) (eq_sym Ev)) Hy) as X; discriminate X].
    cbn [option_map] in Hx. assert (x = g_count F64 g) as -> by congruence. pose proof (eq_trans (f_equal (option_map (fun g => zlen (snd g))) (eq_sym Ev)) Hy) as X. cbn [option_map snd] in X. assert (y = zlen cs) as -> by congruence.
    pose proof (zget_of_nth gl (Z.to_nat i) (v, cs) Ev) as Gv. pose proof (zget_map snd _ _ _ Gv) as Gc. cbn [snd] in Gc.
    pose proof (zget_of_nth (ls_groups F64 ls) (Z.to_nat i) g Eg) as Gg.
    destruct (links_get F64 s L ls (map snd gl) _ cs (proj1 H) Gc) as (g' & Eg' & _ & _ & _ & G4 & _). rewrite Gg in Eg'. injection Eg' as <-. exact G4. }
  rewrite <- E. rewrite <- app_assoc. rewrite Hz. apply (f_equal (fun w => Ok (print_Z (zlen gl) ++ [nl] ++ w ++ [nl]))).
  generalize (ls_groups F64 ls). clear. induction l as [|g l IH]; cbn; auto. now rewrite IH.
Qed.
Lemma global_sizes gf gs : rspaces F64 h s b gf (gs_spaces F64 gs) ->
  global_saveGroups F64 F64_IO h gs true = Ok (print_Z 2 ++ [sp] ++ print_Z (set_len s + 1) ++ [nl] ++ T_ (gs_name F64 gs) ++ [nl] ++ sspaces gf (set_len s)).
Proof.
  intros (Hz & Hsp). unfold global_saveGroups. rewrite Hz. set (out0 := print_Z 2 ++ _).
  assert (P : Post (for_ 2 (set_len s + 1) (fun i out => o <- zget (gs_spaces F64 gs) i ;;
      match o with None => UB NullDeref | Some ls => t <- local_saveGroups F64 F64_IO h ls true ;; Ok (out ++ t) end) out0)
    (fun out => out = out0 ++ sspaces gf (set_len s))).
  { eapply Post_conseq; [apply (for_rule (fun i out => out = out0 ++ sspaces gf (i - 1)))|].
    - cbn. now rewrite app_nil_r.
    - intros L out HL ->. destruct (Hsp L ltac:(lia)) as (ls & E & H). rewrite E. cbn [bind].
      rewrite (local_sizes L ls (gf L) H). cbn [bind]. apply Post_Ok. unfold sspaces.
      replace (L + 1 - 1) with ((L - 1) + 1) by lia. rewrite lengths_snoc by lia. rewrite flat_map_snoc, <- app_assoc. replace (L - 1 + 1) with L by lia. reflexivity.
    - intros out ->. f_equal. destruct (Z.max_spec 2 (set_len s + 1)) as [(_ & ->)|(Hm & ->)]; [f_equal; lia|].
      unfold sspaces, lengths. now replace (Z.to_nat (set_len s - 1)) with 0%nat by lia. }
  destruct (Post_inv _ _ P) as (out & -> & ->). unfold out0. now rewrite <- !app_assoc.
Qed.
Lemma stext_reads (gf : Z -> gl_t) L ws rest : zlen (gf L) < 2 ^ 31 -> (forall v cs, In (v, cs) (gf L) -> zlen cs < 2 ^ 31) -> Forall white ws ->
  exists ws', Forall white ws' /\ reads_sizes (fun L => sizes (gf L)) (ws ++ stext (gf L) ++ rest) L (ws' ++ rest).
Proof.
  intros Hz Hs Hw. unfold stext. rewrite <- !app_assoc.
  destruct (reads_flat (fun z => print_Z z ++ [sp]) first_int (fun z => z) (sizes (gf L))) with (ws := [nl]) (rest := [nl] ++ rest) as (w1 & W1 & R1); [|apply white_one, white_nl|].
  { intros z Hin w r Hw'. exists [sp]. split; [apply white_one, white_sp|]. rewrite <- app_assoc. apply in_map_iff in Hin as ((v, cs) & <- & Hin). cbn [snd].
    refine (first_int_printed w _ sp r Hw' white_sp _). exact (conj (Z.le_trans (- 2 ^ 31) 0 _ ltac:(lia) (zlen_nonneg cs)) (Hs v cs Hin)). }
  rewrite map_id in R1. exists (w1 ++ [nl]). split; [apply white_snoc; auto using white_nl|]. rewrite <- app_assoc. eexists. split; [|exact R1].
  assert (Es : zlen (sizes (gf L)) = zlen (gf L)) by (unfold sizes, zlen; now rewrite map_length). cbv beta. rewrite Es.
  apply first_int_printed; auto using white_nl. pose proof (zlen_nonneg (gf L)). lia.
Qed.
End Text.

(** ** Outcomes that are not exceptions. *)
Definition no_throw {A} (o : outcome A) : Prop := forall e, o <> Throw e.
Lemma nt_Ok {A} (a : A) : no_throw (Ok a). Proof. intros e H. discriminate. Qed.
Lemma nt_UB {A} u : no_throw (@UB A u). Proof. intros e H. discriminate. Qed.
Lemma nt_bind {A B} (o : outcome A) (k : A -> outcome B) : no_throw o -> (forall a, o = Ok a -> no_throw (k a)) -> no_throw (bind o k).
Proof. intros Ho Hk e H. destruct o as [a|x|u|]; cbn in H; try discriminate; [exact (Hk a eq_refl e H)|injection H as ->; exact (Ho e eq_refl)]. Qed.
Lemma nt_for {S} lo hi (body : Z -> S -> outcome S) s : (forall i s, lo <= i < hi -> no_throw (body i s)) -> no_throw (for_ lo hi body s).
Proof.
  intros H. unfold for_. assert (G : forall n i s, lo <= i -> i + Z.of_nat n <= Z.max lo hi -> no_throw (loop n i body s)).
  { induction n as [|n IH]; intros i t Hi Hn; [apply nt_Ok|]. cbn [loop]. apply nt_bind; [apply H; lia|]. intros a _. apply IH; lia. }
  apply G; lia.
Qed.
Lemma nt_zget {A} (l : list A) i : no_throw (zget l i).
Proof. unfold zget. destruct (_ <? 0); [apply nt_UB|]. destruct (nth_error l _); [apply nt_Ok|apply nt_UB]. Qed.
Lemma nt_zset {A} (l : list A) i x : no_throw (zset l i x).
Proof. unfold zset. destruct (_ || _); [apply nt_UB|apply nt_Ok]. Qed.
Lemma nt_init {A} (o : option A) : no_throw (init o).
Proof. destruct o; [apply nt_Ok|apply nt_UB]. Qed.

Lemma nt_forb {S} (I : S -> Prop) lo hi (body : Z -> S -> outcome (ctl S)) s : I s -> (forall i s, lo <= i < hi -> I s -> no_throw (body i s) /\ forall c, body i s = Ok c -> match c with Next t | Break t => I t end) ->
  no_throw (forb lo hi body s) /\ forall t, forb lo hi body s = Ok t -> I t.
Proof.
  intros H0 H. unfold forb. assert (G : forall n i s, I s -> lo <= i -> i + Z.of_nat n <= Z.max lo hi -> no_throw (loopb n i body s) /\ forall t, loopb n i body s = Ok t -> I t).
  { induction n as [|n IH]; intros i u Iu Hi Hn; cbn [loopb]; [split; [apply nt_Ok|]; intros t E; injection E as <-; auto|].
    destruct (H i u ltac:(lia) Iu) as (H1 & H2). destruct (body i u) as [[v|v]|e|x|]; cbn [bind].
    - apply IH; [exact (H2 _ eq_refl)|lia|lia].
    - split; [apply nt_Ok|]. intros t E. injection E as <-. exact (H2 _ eq_refl).
    - exfalso. exact (H1 e eq_refl).
    - split; [apply nt_UB|discriminate].
    - split; intros; discriminate. }
  apply G; auto; lia.
Qed.
Lemma nt_loadGroup fin m g : 0 <= g_length F64 g -> no_throw (loadGroup F64 F64_IO fin m g).
Proof.
  intros Hl. unfold loadGroup, ts_new. destruct (Z.ltb_spec (g_length F64 g) 0); [lia|]. cbn [bind].
  apply nt_bind.
  { apply nt_for. intros i (f, v) _. destruct (extract _ f) as (f', [x|]); [|apply nt_Ok]. apply nt_bind; [apply nt_zset|]. intros. apply nt_Ok. }
  intros (f, v) _. destruct (extract conv_int f) as (f', cnt). apply nt_bind; [apply nt_init|]. intros n _. apply nt_bind.
  - apply nt_for. intros i (((f1, m1), g1), (ix, st)) _. destruct (extract conv_int f1) as (f2, i1). destruct (extract conv_int f2) as (f3, i2).
    apply nt_bind; [apply nt_init|]. intros a _. apply nt_bind; [apply nt_init|]. intros c _. apply nt_bind; [|intros (m2, g2) _; apply nt_Ok].
    unfold addMember. apply nt_bind; [apply nt_zset|]. intros. apply nt_Ok.
  - intros (((f1, m1), g1), x) _. apply nt_Ok.
Qed.
Lemma nt_local fin ls : 0 <= ls_length F64 ls -> no_throw (local_loadGroups F64 F64_IO fin ls).
Proof.
  intros Hl. unfold local_loadGroups. destruct (extract conv_int fin) as (f, n). apply nt_bind; [apply nt_init|]. intros k _. destruct (k <? 0); [intros e H; discriminate|].
  apply nt_bind; [|intros ((f1, m1), g1) _; apply nt_Ok]. apply nt_for. intros i ((f1, m1), g1) _. unfold new_group, ts_new. destruct (Z.ltb_spec (ls_length F64 ls) 0); [lia|]. cbn [bind].
  apply nt_bind; [apply nt_loadGroup; cbn; lia|]. intros ((f2, m2), g2) _. apply nt_Ok.
Qed.

Section Size.
Context (writable : string -> bool).
Local Notation step := (step F64 F64_IO writable).
Local Notation st := (st F64).

(** Saving only the sizes writes the number of groups and their sizes for each length, and changes nothing else, whether the groups were
    generated or loaded. *)
Theorem C61_save : forall (σ : st) i t data f thr p, with_groups writable σ i t data f -> threshold_is σ i thr -> fin64 thr -> writable p = true ->
  set_count t < 2 ^ 31 -> 1 <= set_len t <= 2 ^ 30 -> set_count t * set_len t < 2 ^ 31 -> (forall L, 2 <= L <= set_len t -> zlen (f L) < 2 ^ 31) ->
  exists σ1 file thr2 name, step σ (OpSaveGroup F64 i p true) = Done F64 σ1 (VUnit F64) /\ st_files F64 σ1 p = Some file /\
    size_file file thr2 (set_count t) (set_len t) name (fun L => sizes (f L)) /\ In name [T_ "euclidean"; T_ "euclidean_dtw"] /\ reread 6 thr thr2 /\
    (forall q, q <> p -> st_files F64 σ1 q = st_files F64 σ q) /\ (forall k e, has_dataset F64 σ1 k e <-> has_dataset F64 σ k e) /\
    st_heap F64 σ1 = st_heap F64 σ /\ st_ratio F64 σ1 = st_ratio F64 σ.
Proof.
  intros σ i t data f thr p G (d0 & Hd0 & Eth) Ft Hp Hc Hlen Hsz Hpr.
  destruct (with_rready writable σ i t data f G ltac:(lia) ltac:(lia)) as (W & d & R & Et). destruct (rready_facts σ i d data f R) as (F1 & F2 & F3 & F4 & F5 & F6).
  pose proof R as (C & Hl30 & b & gs & B1 & B2 & B3 & B4 & B5 & B6 & B7). apply check_iff in Hd0. rewrite C in Hd0. injection Hd0 as <-.
  subst t. set (s := ds_set F64 d) in *.
  assert (Hn : exists name, gs_name F64 gs = string_of_list_ascii name /\ In name [T_ "euclidean"; T_ "euclidean_dtw"] /\ name <> [] /\ Forall (fun c => ~ white c) name).
  { destruct B7 as [B7|[B7|[]]]; rewrite <- B7; [exists (T_ "euclidean")|exists (T_ "euclidean_dtw")]; (split; [reflexivity|]); (split; [cbn; auto|]); (split; [discriminate|]); apply not_white_word; reflexivity. }
  destruct Hn as (name & En & Hnn & Hn0 & Hnw).
  set (r3 := sspaces f (set_len s)). set (r2 := name ++ nl :: r3). set (r1 := print_Z (set_len s + 1) ++ nl :: r2). set (r := print_Z 2 ++ sp :: r1).
  destruct (first_double_printed 6 [sp] thr sp (print_Z (set_count s) ++ sp :: print_Z (set_len s) ++ nl :: r) ltac:(lia) (white_one _ white_sp) white_sp Ft (proj2 (prints_6 thr Ft))) as (thr2 & D & T2).
  set (file := print_Z 1 ++ sp :: print_g 6 thr ++ sp :: print_Z (set_count s) ++ sp :: print_Z (set_len s) ++ nl :: r).
  exists (with_file F64 σ p file), file, thr2, name. split; [|split; [|split; [|split; [exact Hnn|split; [exact D|split; [|split; [|split]]]]]]]; try reflexivity.
  - cbn [Api.step]. unfold api_saveGroup. rewrite C. cbn [lift]. rewrite B5, Hp, Eth. cbn [negb lift init].
    rewrite (global_sizes (st_heap F64 σ) s b f gs B6). cbn [lift]. rewrite En. unfold file, r, r1, r2, r3, T_. rewrite list_ascii_of_string_of_list_ascii.
    do 2 f_equal. rewrite <- !app_assoc. cbn [app]. reflexivity.
  - unfold with_file. cbn. now rewrite String.eqb_refl.
  - destruct (reads_flat (fun L => stext (f L)) (reads_sizes (fun L => sizes (f L))) (fun L => L) (lengths (set_len s))) with (ws := [nl]) (rest := @nil ascii) as (w & Ww & R4); [|apply white_one, white_nl|].
    { intros L HL ws rest Hw. apply lengths_in in HL. apply stext_reads; auto. intros v cs Hin. 
      apply (int_bound s ltac:(lia) ltac:(lia) ltac:(lia) L ltac:(lia)); [|intros c Hcc; exact (F5 L v cs c HL Hin Hcc)].
      specialize (F6 L HL). apply in_zget in Hin as (k & Hk & Ek). exact (NoDup_part _ _ _ F6 (zget_map snd _ _ _ Ek)). }
    rewrite map_id, !app_nil_r in R4. fold (sspaces f (set_len s)) in R4. fold r3 in R4.
    exists (nl :: r), (sp :: r1), (nl :: r2), (nl :: r3), w. split; [|split; [|split; [|split; [|split; [exact R4|exact Ww]]]]].
    + exists (sp :: print_g 6 thr ++ sp :: print_Z (set_count s) ++ sp :: print_Z (set_len s) ++ nl :: r), (sp :: print_Z (set_count s) ++ sp :: print_Z (set_len s) ++ nl :: r), (sp :: print_Z (set_len s) ++ nl :: r).
      split; [refine (first_int_printed [] 1 sp _ (Forall_nil _) white_sp _); lia|]. split; [exact T2|].
      split; [refine (first_int_printed [sp] (set_count s) sp _ (white_one _ white_sp) white_sp _); lia|refine (first_int_printed [sp] (set_len s) nl _ (white_one _ white_sp) white_nl _); lia].
    + refine (first_int_printed [nl] 2 sp _ (white_one _ white_nl) white_sp _); lia.
    + refine (first_int_printed [sp] (set_len s + 1) nl _ (white_one _ white_sp) white_nl _); lia.
    + exists [nl]. split; [reflexivity|]. split; [apply white_one, white_nl|]. split; auto. split; auto. right. exists nl, r3. split; auto using white_nl.
  - intros q Hq. unfold with_file. cbn. destruct (String.eqb_spec q p); [contradiction|reflexivity].
Qed.

(** Nothing after the header and the name of the distance is checked: whatever follows, loading never ends in an exception. *)
Theorem C61_body_unchecked : forall (σ : st) i d p t thr r lo r1 hi r2 name r3, has_dataset F64 σ i d -> st_files F64 σ p = Some t ->
  0 <= set_count (ds_set F64 d) -> -1 <= set_len (ds_set F64 d) < 2 ^ 31 - 1 ->
  header t 1 thr (set_count (ds_set F64 d)) (set_len (ds_set F64 d)) r -> first_int r lo r1 -> first_int r1 hi r2 -> first_word r2 name r3 ->
  In name [T_ "euclidean"; T_ "euclidean_dtw"] -> 0 <= lo -> 0 <= hi <= set_len (ds_set F64 d) + 1 ->
  forall σ' e, step σ (OpLoadGroup F64 i p) <> Exn F64 σ' e.
Proof.
  intros σ i d p t thr r lo r1 hi r2 name r3 H Hf Hcnt Hlen (q1 & q2 & q3 & H1 & H2 & H3 & H4) R1 R2 R3 Hn Hlo Hhi σ' e. apply has_check in H.
  destruct (name_dist name Hn) as (k & Ek). cbn [Api.step]. unfold api_loadGroup. rewrite H. cbn [lift]. rewrite Hf. unfold load_header.
  rewrite (extract_int _ _ _ H1). rewrite (ext_dbl _ _ _ H2), (extract_int _ _ _ H3), (extract_int _ _ _ H4). cbn [init bind Z.eqb Pos.eqb negb].
  rewrite !Z.eqb_refl. cbn [negb lift]. set (s := ds_set F64 d) in *.
  assert (P : no_throw (global_loadGroups F64 F64_IO s (mkIS r false)) /\ forall gs x, global_loadGroups F64 F64_IO s (mkIS r false) = Ok (gs, x) -> exists n, x = inl n).
  { unfold global_loadGroups. rewrite (extract_int _ _ _ R1), (extract_int _ _ _ R2), (extract_name _ _ _ R3), Ek.
    unfold resize_null. destruct (Z.ltb_spec (set_len s + 1) 0); [lia|]. cbn [init bind].
    destruct (Z.ltb_spec lo 0); [lia|]. destruct (Z.ltb_spec hi 0); [lia|]. destruct (Z.ltb_spec int_max lo).
    { destruct (lo <? hi); split; try apply nt_UB; try apply nt_Ok; try discriminate. intros gs x E. apply (f_equal (fun o => match o with Ok (_, y) => y | _ => inr e end)) in E. cbn in E. subst x. eauto. }
    destruct (Z.ltb_spec int_max hi); [unfold int_max in *; lia|].
    set (body := fun (i : Z) (st : istream * list (option (lspace F64)) * (Z + exn)) => _). 
    destruct (nt_forb (fun st : istream * list (option (lspace F64)) * (Z + exn) => exists n, snd st = inl n) lo hi body (mkIS r3 false, zrepeat None (set_len s + 1), inl 0)) as (N1 & N2).
    { exists 0. reflexivity. }
    { intros L ((f1, sp1), x1) HL (n & En). cbn [snd] in En. subst x1. unfold body. unfold new_lspace. destruct (Z.ltb_spec (set_count s * (set_len s - L + 1)) 0); [nia|]. cbn [bind].
      set (ls := mkLS F64 L _ _ _). pose proof (nt_local f1 ls ltac:(cbn; lia)) as NT. destruct (local_loadGroups F64 F64_IO f1 ls) as [((f2, ls2), n2)|x|u|] eqn:EL; cbn [catch bind].
      - split; [apply nt_bind; [apply nt_zset|]; intros; apply nt_Ok|]. intros c Ec. destruct (zset sp1 L (Some ls2)); cbn [bind] in Ec; try discriminate. injection Ec as <-. cbn. eauto.
      - exfalso. exact (NT x eq_refl).
      - split; [apply nt_UB|discriminate].
      - split; [intros y Hy; discriminate|discriminate]. }
    destruct (forb lo hi body _) as [((f1, sp1), x1)|x|u|]; cbn [bind].
    - split; [apply nt_Ok|]. intros gs x E. destruct (N2 _ eq_refl) as (n & En). cbn [snd] in En. exists n. congruence.
    - exfalso. exact (N1 x eq_refl).
    - split; [apply nt_UB|discriminate].
    - split; intros; discriminate. }
  destruct P as (P1 & P2). destruct (global_loadGroups F64 F64_IO s (mkIS r false)) as [(gs, x)|x|u|]; cbn [lift]; try discriminate.
  - destruct (P2 gs x eq_refl) as (n & ->). discriminate.
  - exfalso. exact (P1 x eq_refl).
Qed.
(** So a size file is not recognised as such when it is loaded into a dataset of the same dimensions. *)
Corollary C61_not_recognised : forall (σ : st) i d p t thr name f, has_dataset F64 σ i d -> st_files F64 σ p = Some t ->
  0 <= set_count (ds_set F64 d) -> -1 <= set_len (ds_set F64 d) < 2 ^ 31 - 1 -> size_file t thr (set_count (ds_set F64 d)) (set_len (ds_set F64 d)) name f ->
  In name [T_ "euclidean"; T_ "euclidean_dtw"] -> forall σ' e, step σ (OpLoadGroup F64 i p) <> Exn F64 σ' e.
Proof.
  intros σ i d p t thr name f H Hf Hc Hl (r & r1 & r2 & r3 & r4 & A & B & C & D & _) Hn. eapply (C61_body_unchecked σ i d p t thr r 2 r1 _ r2 name r3); eauto; lia.
Qed.
End Size.

(** A group of one length is found by its number; other numbers throw. *)
Theorem C61_group_access : forall N (ls : lspace N) k,
  (0 <= k < zlen (ls_groups N ls) -> exists g, getGroup N ls k = Ok g /\ nth_error (ls_groups N ls) (Z.to_nat k) = Some g) /\
  (~ 0 <= k < zlen (ls_groups N ls) -> exists m, getGroup N ls k = Throw (OnexExn m)).
Proof.
  intros N ls k. unfold getGroup, getNumberOfGroups. destruct (Z.ltb_spec k 0), (Z.leb_spec (zlen (ls_groups N ls)) k); cbn [orb]; (split; [|intros; try lia; eauto]); try lia.
  intros R. destruct (zget_Ok (ls_groups N ls) k R) as (g & E). exists g. split; auto. now apply zget_inv in E.
Qed.
(** The sizes of one length add up to the number of subsequences of that length. *)
Lemma subs_count (s : tset) L l : 0 <= set_count s -> set_len s <= 2 ^ 30 -> 1 <= L <= set_len s -> NoDup l ->
  (forall c, In c l <-> valid s L c) -> zlen l = set_count s * (set_len s - L + 1).
Proof.
  intros Hc Hlen HL Hn H. apply Z.le_antisymm.
  { assert (D : NoDup (map (cpos s L) l)).
    { assert (V : forall c, In c l -> valid s L c) by (intros c; apply H). clear - Hn V HL Hlen. induction Hn as [|x ms Hx Hd IH]; [constructor|]. cbn. constructor.
      - intros Hin. apply in_map_iff in Hin as (y & E & Hy). apply Hx. rewrite <- (cpos_inj s Hlen L HL y x); auto; apply V; [now right|now left].
      - apply IH. intros c Hc. apply V. now right. }
    assert (I : incl (map (cpos s L) l) (map Z.of_nat (seq 0 (Z.to_nat (set_count s * (set_len s - L + 1)))))).
    { intros z Hz. apply in_map_iff in Hz as (c & <- & Hcc). pose proof (cpos_range s L HL c (proj1 (H c) Hcc)).
      apply in_map_iff. exists (Z.to_nat (cpos s L c)). split; [lia|]. apply in_seq. lia. }
    pose proof (NoDup_incl_length D I) as X. rewrite !map_length, seq_length in X. unfold zlen. nia. }
  set (sub := set_len s - L + 1). assert (I : incl (map Z.of_nat (seq 0 (Z.to_nat (set_count s * sub)))) (map (cpos s L) l)).
  { intros z Hz. apply in_map_iff in Hz as (k & <- & Hk). apply in_seq in Hk. apply in_map_iff. exists (Z.of_nat k / sub, Z.of_nat k mod sub).
    assert (Hs : 0 < sub) by (unfold sub; lia). pose proof (Z.div_mod (Z.of_nat k) sub ltac:(lia)) as E. pose proof (Z.mod_pos_bound (Z.of_nat k) sub Hs) as B. split.
    - unfold cpos. cbn [fst snd]. fold sub. lia.
    - apply H. unfold valid, is_sub. cbn [fst snd]. assert (0 <= Z.of_nat k / sub) by (apply Z.div_pos; lia).
      assert (Z.of_nat k / sub < set_count s) by (apply Z.div_lt_upper_bound; lia). unfold sub in *. lia. }
  apply NoDup_incl_length in I; [|apply FinFun.Injective_map_NoDup; [intros a b E; lia|apply seq_NoDup]]. rewrite !map_length, seq_length in I. unfold zlen. fold sub. clearbody sub. nia.
Qed.
Lemma sizes_concat {A} (l : list (list A)) : zlen (concat l) = fold_right Z.add 0 (map zlen l).
Proof. induction l as [|x l IH]; [reflexivity|]. cbn [concat map fold_right]. now rewrite zlen_app, IH. Qed.
Theorem C61_total : forall writable (σ : st F64) i thr t data L gm, grouped_earlier F64 F64_IO writable σ i thr t data -> fin64 thr -> set_len t <= 2 ^ 30 ->
  2 <= L <= set_len t -> groups_now F64 σ i t data L gm -> fold_right Z.add 0 (map zlen gm) = set_count t * (set_len t - L + 1).
Proof.
  intros writable σ i thr t data L gm G Ft Hlen HL Hnow.
  destruct (earlier_ready F64 F64_IO writable fin64 pos64 σ i thr t data G ltac:(lia) (half64_lt_inf thr Ft)) as (W & gmf' & d & R & Et & Eth).
  assert (Eg : gm = gmf' L). { subst t. apply (ready_now F64 σ i d data gmf' L gm R HL). exact Hnow. }
  pose proof R as (C & _ & b & gs & B1 & B2 & B3 & B4 & B5 & B6 & B7 & B8). subst t gm. rewrite <- sizes_concat. apply subs_count; [auto|auto|lia|destruct (proj2 B6 L HL) as (ls & _ & Hls); apply Hls|].
  intros c. apply B7; auto.
Qed.

(** ** Examples. *)
Example C61_case : exists σ f, with_groups (fun _ => true) σ 0 ex_set (map f64_ofZ ex_ints) f /\ threshold_is σ 0 (f64_ofZ 1) /\ fin64 (f64_ofZ 1) /\
  (forall L, 2 <= L <= set_len ex_set -> zlen (f L) < 2 ^ 31 /\ f L <> []).
Proof.
  destruct ex_with as (σ & f & G & T & Hf & _). exists σ, f. split; auto. split; auto. split; [apply ofZ_exact; lia|]. intros L HL. apply (Hf L HL).
Qed.
(** Loading the sizes of one's own groups: undefined behaviour. *)
Definition size_run : option ub :=
  match run F64 F64_IO (fun _ => true) (ex_st F64 f64_ofZ) [OpGroup F64 0 (f64_ofZ 1) (fun _ => false); OpSaveGroup F64 0 "g" true] with
  | Some σ => match step F64 F64_IO (fun _ => true) σ (OpLoadGroup F64 0 "g") with Bad _ u => Some u | _ => None end
  | None => None end.
Theorem C61_load_witness : exists (σ : st F64) u, run F64 F64_IO (fun _ => true) (ex_st F64 f64_ofZ) [OpGroup F64 0 (f64_ofZ 1) (fun _ => false); OpSaveGroup F64 0 "g" true] = Some σ /\
  step F64 F64_IO (fun _ => true) σ (OpLoadGroup F64 0 "g") = Bad F64 u.
Proof.
  assert (H : match size_run with Some _ => true | None => false end = true) by (vm_compute; reflexivity). unfold size_run in H.
  destruct (run F64 F64_IO (fun _ => true) (ex_st F64 f64_ofZ) _) as [σ|] eqn:E; [|discriminate H]. exists σ.
  destruct (step F64 F64_IO (fun _ => true) σ (OpLoadGroup F64 0 "g")) as [x v|x e|u|]; try discriminate H. eauto.
Qed.
(** Access to the first group of length 3 in that session. *)
Example C61_group_access_case : exists (σ : st F64) d gs ls g, run F64 F64_IO (fun _ => true) (ex_st F64 f64_ofZ) [OpGroup F64 0 (f64_ofZ 1) (fun _ => false)] = Some σ /\
  checkDatasetIndex F64 σ 0 = Ok d /\ ds_groups F64 d = Some gs /\ zget (gs_spaces F64 gs) 3 = Ok (Some ls) /\ getGroup F64 ls 0 = Ok g /\ g_count F64 g = 1.
Proof.
  assert (H : match run F64 F64_IO (fun _ => true) (ex_st F64 f64_ofZ) [OpGroup F64 0 (f64_ofZ 1) (fun _ => false)] with Some σ =>
     match checkDatasetIndex F64 σ 0 with Ok d => match ds_groups F64 d with Some gs => match zget (gs_spaces F64 gs) 3 with Ok (Some ls) => match getGroup F64 ls 0 with Ok g => g_count F64 g | _ => 0 end | _ => 0 end | _ => 0 end | _ => 0 end | _ => 0 end = 1).
  { vm_compute. reflexivity. }
  destruct (run F64 F64_IO (fun _ => true) (ex_st F64 f64_ofZ) _) as [σ|]; [|discriminate]. exists σ.
  destruct (checkDatasetIndex F64 σ 0) as [d| | |]; try discriminate. exists d. destruct (ds_groups F64 d) as [gs|]; [|discriminate]. exists gs.
  destruct (zget (gs_spaces F64 gs) 3) as [[ls|]| | |] eqn:E3; try discriminate. exists ls. destruct (getGroup F64 ls 0) as [g| | |] eqn:E4; try discriminate. exists g. do 5 (split; [first [exact E3|reflexivity]|]). exact H.
Qed.
