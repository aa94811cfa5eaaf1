(** * The checked loading of group files against the unbounded one: no overflow for files whose members are
    subsequences of the dataset. *)
From Coq Require Import ZArith Bool Lia List Ascii String SpecFloat.
From Verif Require Import Outcome Num Distance TimeSeries Text Dataset Groups Api F64Base DecSpec NumSpec GroupSpec GroupProofs StreamProofs GroupFileSpec GroupFileProofs Ints IntsProofs IntsMatch.
Import ListNotations.
Open Scope Z_scope.

Section IntsLoad.
Context (s : tset).
Hypothesis Hz : IntsProofs.sized s.
Hypothesis Hs : 0 <= set_len s <= 1073741824.
Local Notation valid := (valid s).

Lemma load_group_same L v cs t r m g : 1 <= L <= set_len s -> reads_group t (v, cs) r -> zlen v = L -> (forall c, In c cs -> valid L c) ->
  g_length F64 g = L -> g_sub F64 g = set_len s - L + 1 ->
  loadGroup32 F64 F64_IO (mkIS t false) m g = loadGroup F64 F64_IO (mkIS t false) m g /\
  forall fin' m' g', loadGroup F64 F64_IO (mkIS t false) m g = Ok (fin', m', g') -> fin' = mkIS r false.
Proof.
  intros HL (t1 & t2 & R1 & R2 & R3) Hv HV GL GS. cbn [fst snd] in *. unfold loadGroup32, loadGroup. rewrite GL. unfold ts_new.
  destruct (Z.ltb_spec L 0); [lia|]. cbn [bind]. rewrite (load_values s L HL v t t1 R1 Hv). cbn [bind]. rewrite (extract_int _ _ _ R2). cbn [init bind].
  set (g1 := set_centroid_ts F64 g _). assert (G1 : g_sub F64 g1 = set_len s - L + 1) by exact GS. clearbody g1.
  set (I := fun (j : Z) (st : istream * list membership * group F64 * (option Z * option Z)) => let '(fin, _, g, _) := st in
     (exists t', fin = mkIS t' false /\ reads reads_coord t' (zskip j cs) r) /\ g_sub F64 g = set_len s - L + 1).
  assert (I0 : I 0 (mkIS t2 false, m, g1, (None, None))) by (split; [exists t2; auto|exact G1]).
  match goal with |- bind (for_ 0 _ ?b32 _) _ = bind (for_ 0 _ ?b _) _ /\ _ => assert (K : forall j st, 0 <= j < zlen cs -> I j st -> b32 j st = b j st /\ forall st', b j st = Ok st' -> I (j + 1) st') end.
  { intros j (((fin & m1) & g2) & (ix & sx)) Hj ((t3 & -> & A3) & GS2). destruct (zget_Ok cs j Hj) as (c & Ec). rewrite (zskip_get _ _ _ Ec) in A3. cbn [reads] in A3.
    destruct A3 as (t5 & (t4 & B1 & B2) & A5). rewrite (extract_int _ _ _ B1), (extract_int _ _ _ B2). cbn [init bind].
    pose proof (HV c (zget_in _ _ _ Ec)) as Vc. unfold addMember32. rewrite GS2. destruct (place_in s Hz L c HL Vc). rewrite chk_in by auto. cbn [bind]. rewrite chk_in by auto. cbn [bind].
    split; [reflexivity|]. intros st' E. apply bind_Ok_inv in E as ((m2 & g3) & Ea & E). injection E as <-. split; [exists t5; auto|].
    unfold addMember in Ea. apply bind_Ok_inv in Ea as (m3 & _ & Ea). injection Ea as <- <-. exact GS2. }
  match goal with |- bind (for_ 0 _ ?b32 _) _ = bind (for_ 0 _ ?b _) _ /\ _ => rewrite (same_for I b32 b) end; [|exact I0|exact K].
  split; [reflexivity|]. intros fin' m' g' E. apply bind_Ok_inv in E as ((((f1 & m1) & g2) & x) & E1 & E). injection E as <- <- <-.
  pose proof (for_after I _ _ _ _ _ E1 I0 ltac:(intros j st st' Hj Hst Est; exact (proj2 (K j st Hj Hst) st' Est))) as ((t' & -> & A) & _).
  rewrite Z.max_r in A by apply zlen_nonneg. rewrite zskip_all in A. cbn in A. now subst t'.
Qed.
Lemma local_load_same L f t r ls0 : 1 <= L <= set_len s -> new_lspace F64 s L = Ok ls0 -> reads_length f t L r -> (forall v cs, In (v, cs) (f L) -> zlen v = L) ->
  (forall v cs c, In (v, cs) (f L) -> In c cs -> valid L c) ->
  local_loadGroups32 F64 F64_IO (mkIS t false) ls0 = local_loadGroups F64 F64_IO (mkIS t false) ls0 /\
  forall fin' ls n, local_loadGroups F64 F64_IO (mkIS t false) ls0 = Ok (fin', ls, n) -> fin' = mkIS r false /\ n = zlen (f L).
Proof.
  intros HL E0 (t1 & R1 & R2) Hf HV. set (gl := f L) in *. destruct (new_lspace_shape F64 s L ls0 E0) as (L1 & L2 & _).
  unfold local_loadGroups32, local_loadGroups. rewrite L1, L2. pose proof (zlen_nonneg gl). rewrite (extract_int _ _ _ R1). cbn [init bind]. destruct (Z.ltb_spec (zlen gl) 0); [lia|].
  set (I := fun (j : Z) (st : istream * list membership * list (group F64)) => let '(fin, _, _) := st in exists t', fin = mkIS t' false /\ reads reads_group t' (zskip j gl) r).
  assert (I0 : I 0 (mkIS t1 false, ls_map F64 ls0, [])) by (exists t1; auto).
  match goal with |- bind (for_ 0 _ ?b32 _) _ = bind (for_ 0 _ ?b _) _ /\ _ => assert (K : forall j st, 0 <= j < zlen gl -> I j st -> b32 j st = b j st /\ forall st', b j st = Ok st' -> I (j + 1) st') end.
  { intros j ((fin & m1) & gs) Hj (t3 & -> & A3). destruct (zget_Ok gl j Hj) as ((v & cs) & Em). rewrite (zskip_get _ _ _ Em) in A3. cbn [reads] in A3. destruct A3 as (t4 & R3 & A4).
    pose proof (zget_in _ _ _ Em) as Hin. unfold new_group, ts_new. destruct (Z.ltb_spec L 0); [lia|]. cbn [bind].
    match goal with |- context [loadGroup F64 F64_IO (mkIS t3 false) m1 ?g] => destruct (load_group_same L v cs t3 t4 m1 g HL R3 (Hf v cs Hin) (fun c => HV v cs c Hin) eq_refl eq_refl) as (-> & Q) end.
    split; [reflexivity|]. intros st' E. apply bind_Ok_inv in E as (((f1 & m2) & g2) & E1 & E). injection E as <-. exists t4. split; [exact (Q _ _ _ E1)|exact A4]. }
  match goal with |- bind (for_ 0 _ ?b32 _) _ = bind (for_ 0 _ ?b _) _ /\ _ => rewrite (same_for I b32 b) end; [|exact I0|exact K].
  split; [reflexivity|]. intros fin' ls n E. apply bind_Ok_inv in E as (((f1 & m1) & gs) & E1 & E). injection E as <- <- <-. split; [|reflexivity].
  pose proof (for_after I _ _ _ _ _ E1 I0 ltac:(intros j st st' Hj Hst Est; exact (proj2 (K j st Hj Hst) st' Est))) as (t' & -> & A).
  rewrite Z.max_r in A by apply zlen_nonneg. rewrite zskip_all in A. cbn in A. now subst t'.
Qed.
Lemma lengths_get n L : 2 <= L <= n -> zget (lengths n) (L - 2) = Ok L.
Proof.
  intros HL. unfold lengths. destruct (zget_Ok (map (fun k => 2 + Z.of_nat k) (seq 0 (Z.to_nat (n - 1)))) (L - 2)) as (x & Ex).
  { unfold zlen. rewrite map_length, seq_length. lia. }
  rewrite Ex. f_equal. apply zget_inv in Ex as (_ & Ex). rewrite nth_error_map in Ex. destruct (nth_error (seq 0 _) _) as [y|] eqn:Ey; [|discriminate]. cbn [option_map] in Ex. assert (x = 2 + Z.of_nat y) by congruence.
  apply (nth_error_nth _ _ 0%nat) in Ey. rewrite seq_nth in Ey by lia. lia.
Qed.
Lemma total_mono {A} (f : Z -> list A) n : forall k, 1 <= k <= n -> 0 <= group_total f k <= group_total f n.
Proof.
  assert (P : forall m, 0 <= group_total f (1 + Z.of_nat m)).
  { induction m as [|m IH]; [cbn; lia|]. replace (1 + Z.of_nat (S m)) with (1 + Z.of_nat m + 1) by lia. rewrite total_next by lia. pose proof (zlen_nonneg (f (1 + Z.of_nat m + 1))). lia. }
  assert (Q : forall k m, 1 <= k -> group_total f k <= group_total f (k + Z.of_nat m)).
  { intros k m Hk. induction m as [|m IH]; [replace (k + Z.of_nat 0) with k by lia; lia|]. replace (k + Z.of_nat (S m)) with (k + Z.of_nat m + 1) by lia. rewrite total_next by lia. pose proof (zlen_nonneg (f (k + Z.of_nat m + 1))). lia. }
  intros k Hk. split; [replace k with (1 + Z.of_nat (Z.to_nat (k - 1))) by lia; apply P|]. replace n with (k + Z.of_nat (Z.to_nat (n - k))) by lia. apply Q. lia.
Qed.
Theorem global_load_same f r r1 r2 name r3 r4 : (forall L v cs, 2 <= L <= set_len s -> In (v, cs) (f L) -> zlen v = L) ->
  (forall L v cs c, 2 <= L <= set_len s -> In (v, cs) (f L) -> In c cs -> valid L c) -> group_total f (set_len s) <= int_max ->
  first_int r 2 r1 -> first_int r1 (set_len s + 1) r2 -> first_word r2 name r3 -> reads (reads_length f) r3 (lengths (set_len s)) r4 ->
  global_loadGroups32 F64 F64_IO s (mkIS r false) = global_loadGroups F64 F64_IO s (mkIS r false).
Proof.
  intros Hf HV HT R1 R2 R3 R4. unfold global_loadGroups32, global_loadGroups. rewrite (extract_int _ _ _ R1), (extract_int _ _ _ R2), (extract_name _ _ _ R3).
  destruct (getDistance (string_of_list_ascii name)) as [k| | |]; try reflexivity. ck. destruct (resize_null F64 (set_len s + 1)) as [sp| | |]; try reflexivity. cbn [init bind].
  change (2 <? 0) with false. cbv iota. change (int_max <? 2) with false. cbv iota. destruct (Z.ltb_spec (set_len s + 1) 0); [unfold short in *; lia|].
  destruct (Z.ltb_spec int_max (set_len s + 1)); [unfold short, int_max in *; lia|]. f_equal.
  apply (same_forb (fun i (st : istream * list (option (lspace F64)) * (Z + exn)) => let '(fin, sp, r) := st in
        (exists t, fin = mkIS t false /\ reads (reads_length f) t (zskip (i - 2) (lengths (set_len s))) r4) /\ r = inl (group_total f (i - 1)))).
  - split; [exists r3; auto|reflexivity].
  - intros L ((fin & sp4) & x) HL ((t & -> & A4) & ->). rewrite (zskip_get _ _ _ (lengths_get (set_len s) L ltac:(lia))) in A4. cbn [reads] in A4. destruct A4 as (t5 & R5 & A5).
    pose proof Hz as ((Z1 & _) & Z2 & Z3). specialize (Z3 ltac:(lia)).
    rewrite (new_lspace32_Ok F64 s L) by lia. destruct (new_lspace F64 s L) as [ls0| | |] eqn:E0; cbn [bind]; try (split; [reflexivity|discriminate]).
    destruct (local_load_same L f t t5 ls0 ltac:(lia) E0 R5 (fun v cs H => Hf L v cs ltac:(lia) H) (fun v cs c H => HV L v cs c ltac:(lia) H)) as (-> & Q).
    destruct (local_loadGroups F64 F64_IO (mkIS t false) ls0) as [((f5 & ls5) & n5)| | |] eqn:E5; cbn [catch bind]; try (split; [reflexivity|discriminate]).
    destruct (Q _ _ _ eq_refl) as (-> & ->). destruct (zset sp4 L (Some ls5)) as [sp5| | |]; cbn [bind]; try (split; [reflexivity|discriminate]).
    assert (X : group_total f (L - 1) + zlen (f L) = group_total f L) by (replace L with (L - 1 + 1) at 3 by lia; rewrite total_next by lia; now replace (L - 1 + 1) with L by lia).
    pose proof (total_mono f (set_len s) L ltac:(lia)). rewrite X. rewrite chk_in by (unfold int_min; lia). cbn [bind]. split; [reflexivity|]. intros st' [= <-].
    split; [exists t5; split; auto; replace (L + 1 - 2) with (L - 2 + 1) by lia; exact A5|]. now replace (L + 1 - 1) with L by lia.
Qed.
End IntsLoad.
