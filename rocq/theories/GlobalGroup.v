(** * Grouping all lengths of a dataset. *)
From Coq Require Import ZArith Bool Lia String Sorted Permutation List.
From Verif Require Import Outcome Num Lemire Distance TimeSeries Text Dataset Groups Api Laws Spec SafeDist.
From Verif Require Import TsProofs GroupSpec GroupProofs.
Import ListNotations.
Open Scope Z_scope.

Section Refine.
(** A loop whose body agrees with another one where the other one returns. *)
Lemma loop_ok_impl {S} (f g : Z -> S -> outcome S) n : (forall j t r, f j t = Ok r -> g j t = Ok r) ->
  forall i s r, loop n i f s = Ok r -> loop n i g s = Ok r.
Proof.
  intros H. induction n as [|n IH]; intros i s r; cbn; auto. intros E. apply bind_Ok_inv in E as (t & Ef & E).
  rewrite (H _ _ _ Ef). cbn. auto.
Qed.
Lemma for_ok_impl {S} (f g : Z -> S -> outcome S) lo hi s r : (forall j t r, f j t = Ok r -> g j t = Ok r) ->
  for_ lo hi f s = Ok r -> for_ lo hi g s = Ok r.
Proof. intros H. unfold for_. now apply loop_ok_impl. Qed.
Lemma loop_ext {S} (f g : Z -> S -> outcome S) n : forall i s, (forall j t, i <= j < i + Z.of_nat n -> f j t = g j t) ->
  loop n i f s = loop n i g s.
Proof.
  induction n as [|n IH]; intros i s H; cbn [loop]; auto. rewrite H by lia. destruct (g i s); cbn [bind]; auto.
  apply IH. intros. apply H. lia.
Qed.
Lemma for_ext {S} (f g : Z -> S -> outcome S) lo hi s : (forall j t, lo <= j < hi -> f j t = g j t) ->
  for_ lo hi f s = for_ lo hi g s.
Proof. intros H. unfold for_. apply loop_ext. intros. apply H. lia. Qed.
Lemma loop_crash {S} (f g : Z -> S -> outcome S) (c : Z -> bool) u n :
  (forall j t, f j t = if c j then UB u else g j t) -> forall i s r, loop n i g s = Ok r ->
  (exists j, i <= j < i + Z.of_nat n /\ c j = true) -> loop n i f s = UB u.
Proof.
  intros H. induction n as [|n IH]; intros i s r E (j & Hj & Hc); [lia|]. cbn [loop] in *.
  rewrite H. destruct (c i) eqn:Ci; [reflexivity|]. apply bind_Ok_inv in E as (t & Et & E). rewrite Et. cbn [bind].
  apply (IH _ _ r E). exists j. split; auto. destruct (Z.eq_dec i j) as [->|]; [congruence|lia].
Qed.
Lemma for_crash {S} (f g : Z -> S -> outcome S) (c : Z -> bool) u lo hi s r :
  (forall j t, f j t = if c j then UB u else g j t) -> for_ lo hi g s = Ok r ->
  (exists j, lo <= j < hi /\ c j = true) -> for_ lo hi f s = UB u.
Proof.
  intros H E (j & Hj & Hc). unfold for_ in *. eapply loop_crash; eauto. exists j. split; auto. lia.
Qed.
End Refine.

Section GlobalGroup.
Context (N : NumOps) (dat pos : num N -> Prop).
Local Notation T := (num N).
Local Notation lt := (Laws.lt N).
Local Notation le := (Laws.le N).

Context (h : heap N) (s : tset) (b : nat) (data : list T).
Hypothesis Hbuf : set_buf s = Some b.
Hypothesis Hheap : heap_get N h b = Ok data.
Hypothesis Hlen : set_len s <= 2 ^ 30.
Hypothesis Hcnt : 0 <= set_count s.
Hypothesis Hsize : set_count s * set_len s <= zlen data.

(** All lengths of the space are as they should be. *)
Definition space_ok (half : T) (gs : gspace N) (L : Z) : Prop :=
  exists ls gm, zget (gs_spaces N gs) L = Ok (Some ls) /\ ls_ok N h s b L ls gm /\
    (forall c, In c (concat gm) <-> valid s L c) /\ rules N dat pos s data L half gm.

Definition ngroups (o : option (lspace N)) : Z := match o with Some ls => zlen (ls_groups N ls) | None => 0 end.
Definition zsum (l : list Z) : Z := fold_right Z.add 0 l.
Lemma zsum_set l : forall i a x l', zget l i = Ok a -> zset l i x = Ok l' -> zsum l' = zsum l - a + x.
Proof.
  intros i a x l' Ha E. apply zset_inv in E as (_ & ->). apply zget_inv in Ha as (_ & Ha).
  revert Ha. unfold zsum. generalize (Z.to_nat i). clear. induction l as [|y l IH]; intros [|n] H; cbn in *; try discriminate.
  - injection H as ->. lia.
  - rewrite (IH n H). lia.
Qed.
Lemma map_list_set {A B} (f : A -> B) l n x : map f (list_set l n x) = list_set (map f l) n (f x).
Proof. revert n. induction l as [|y l IH]; intros [|n]; cbn; auto. now rewrite IH. Qed.

Lemma new_lspace_ok L : 1 <= L <= set_len s -> exists ls, new_lspace N s L = Ok ls.
Proof.
  intros HL. unfold new_lspace. destruct (Z.ltb_spec (set_count s * (set_len s - L + 1)) 0); [nia|]. eauto.
Qed.

Theorem global_group_spec ratio thr clock : 0 <= set_len s + 1 ->
  lt (half_of N thr) (ninf N) ->
  (forall l, 2 <= l <= set_len s -> clock l = true -> 1 <= set_count s -> 5 <= (set_len s - l + 1) * set_count s) ->
  Post (global_group N h ratio s "euclidean" thr clock)
    (fun r => zlen (gs_spaces N (fst r)) = set_len s + 1 /\
      (forall L, 2 <= L <= set_len s -> space_ok (half_of N thr) (fst r) L) /\
      snd r = zsum (map ngroups (gs_spaces N (fst r))) /\
      (forall L, 0 <= L < 2 -> L <= set_len s -> zget (gs_spaces N (fst r)) L = Ok None) /\
      gs_kind N (fst r) = Some DPairwise /\ gs_name N (fst r) = "euclidean"%string).
Proof.
  intros Hl0 Hinf Hlog. unfold global_group. cbn [getDistance String.eqb Ascii.eqb Bool.eqb bind].
  replace (getDistance "euclidean") with (Ok DPairwise) by reflexivity. cbn [bind].
  unfold resize_null. destruct (Z.ltb_spec (set_len s + 1) 0); [lia|]. cbn [bind].
  rewrite zlen_zrepeat by lia.
  set (I := fun i (st : list (option (lspace N)) * Z) => zlen (fst st) = set_len s + 1 /\
     (forall L, i <= L <= set_len s \/ (0 <= L < 2 /\ L <= set_len s) -> zget (fst st) L = Ok None) /\
     (forall L, 2 <= L < i -> space_ok (half_of N thr) (mkGS N (fst st) "euclidean" (Some DPairwise)) L) /\
     snd st = zsum (map ngroups (fst st))).
  eapply Post_seq with (P := I (Z.max 2 (set_len s + 1))).
  - apply (for_rule I).
    + split; [cbn; apply zlen_zrepeat; lia|]. split; [intros L HL; apply zget_zrepeat; lia|]. split; [intros L HL; lia|].
      cbn [fst snd]. unfold zrepeat. induction (Z.to_nat (set_len s + 1)); cbn; auto.
    + intros i (sp, total) Hi (I1 & I2 & I3 & I4). cbn [fst snd] in *.
      destruct (new_lspace_ok i) as (ls0 & E0); [lia|]. rewrite E0. cbn [bind].
      eapply Post_seq; [apply (generateGroups_spec N dat pos h s b data Hbuf Hheap Hlen Hcnt Hsize i)|].
      * lia.
      * exact Hinf.
      * intros Hc. apply Hlog; auto. lia.
      * exact E0.
      * intros ls (gm & Hls & R & _ & Hv).
        destruct (zset_ex sp i (Some ls)) as (sp' & Es); [lia|]. rewrite Es. cbn [bind]. apply Post_Ok.
        split; [cbn; now rewrite (zset_len _ _ _ _ Es)|]. split; [|split].
        -- intros L HL. cbn [fst]. rewrite (zget_zset_neq _ _ _ _ _ Es) by lia. apply I2. lia.
        -- intros L HL. cbn [fst]. destruct (Z.eq_dec L i) as [->|].
           ++ exists ls, gm. split; [exact (zget_zset_eq _ _ _ _ Es)|]. auto.
           ++ destruct (I3 L) as (ls' & gm' & A & B); [lia|]. exists ls', gm'. split; auto. cbn [gs_spaces].
              rewrite (zget_zset_neq _ _ _ _ _ Es); auto.
        -- cbn [fst snd]. unfold getNumberOfGroups. pose proof (zset_inv _ _ _ _ Es) as (_ & ->). rewrite map_list_set.
           rewrite (zsum_set (map ngroups sp) i 0 (ngroups (Some ls)) (list_set (map ngroups sp) (Z.to_nat i) (ngroups (Some ls)))).
           ++ cbn [ngroups]. lia.
           ++ pose proof (I2 i ltac:(lia)) as Hz. apply zget_inv in Hz as (Hr & Hz). unfold zget.
              destruct (Z.ltb_spec i 0); [lia|]. now rewrite nth_error_map, Hz.
           ++ apply zset_Ok. unfold zlen in *. rewrite map_length. lia.
  - intros (sp, total) (I1 & I2 & I3 & I4). apply Post_Ok. cbn [fst snd gs_spaces gs_kind gs_name] in *.
    split; auto. split; [intros L HL; apply I3; lia|]. split; auto.
Qed.

(** The clock only decides between returning and dividing by zero. *)
Lemma generateGroups_clock k ratio thr doLog ls r :
  generateGroups N k h ratio s thr doLog ls = Ok r -> generateGroups N k h ratio s thr false ls = Ok r.
Proof.
  unfold generateGroups. intros E. apply bind_Ok_inv in E as ((l1, c1) & Ef & E).
  erewrite (for_ok_impl _ _ _ _ _ _ _ Ef). { exact E. }
  Unshelve. intros st_ (l2, c2) r2. apply for_ok_impl.
  intros ix (l3, c3) r3. cbn beta iota. intros E3. apply bind_Ok_inv in E3 as (u & _ & E3). exact E3.
Qed.
Lemma global_group_clock ratio thr name clock r :
  global_group N h ratio s name thr clock = Ok r -> global_group N h ratio s name thr (fun _ => false) = Ok r.
Proof.
  unfold global_group. intros E. apply bind_Ok_inv in E as (k & Ek & E). rewrite Ek. cbn [bind].
  apply bind_Ok_inv in E as (sp & Es & E). rewrite Es. cbn [bind]. apply bind_Ok_inv in E as (x & Ex & E).
  erewrite (for_ok_impl _ _ _ _ _ _ _ Ex). { exact E. }
  Unshelve. intros j (sp', t) y Ey. cbn beta iota in *. apply bind_Ok_inv in Ey as (ls & El & Ey). rewrite El. cbn [bind].
  apply bind_Ok_inv in Ey as (ls' & El' & Ey). rewrite (generateGroups_clock _ _ _ _ _ _ El'). exact Ey.
Qed.

Definition crashes (clock : Z -> bool) (l : Z) : bool :=
  clock l && (1 <=? (set_len s - l + 1) * set_count s) && ((set_len s - l + 1) * set_count s <? 5).

Lemma generateGroups_log k ratio thr doLog ls :
  generateGroups N k h ratio s thr doLog ls =
    if doLog && (1 <=? ls_sub N ls * set_count s) && (ls_sub N ls * set_count s <? 5) && (0 <? ls_sub N ls)
    then UB DivZero else generateGroups N k h ratio s thr false ls.
Proof.
  destruct doLog; [|reflexivity]. cbn [andb].
  destruct (Z.leb_spec 1 (ls_sub N ls * set_count s)) as [H1|H1]; cbn [andb].
  - destruct (Z.ltb_spec (ls_sub N ls * set_count s) 5) as [H5|H5]; cbn [andb].
    + destruct (Z.ltb_spec 0 (ls_sub N ls)) as [H0|H0]; [|nia].
      unfold generateGroups. unfold for_ at 1. rewrite Z.sub_0_r.
      destruct (Z.to_nat (ls_sub N ls)) eqn:En; [lia|]. cbn [loop]. unfold for_ at 1. rewrite Z.sub_0_r.
      destruct (Z.to_nat (set_count s)) eqn:Ec; [nia|]. cbn [loop]. unfold log_progress at 1.
      rewrite Z.quot_div_nonneg by lia. rewrite Z.div_small by lia. reflexivity.
    + unfold generateGroups. f_equal. apply for_ext. intros st_ t Hs. apply for_ext. intros ix (l3, c3) Hi.
      unfold log_progress. destruct (Z.eqb_spec ((ls_sub N ls * set_count s) ÷ 5) 0) as [E|]; auto.
      rewrite Z.quot_div_nonneg in E by lia. assert (1 <= ls_sub N ls * set_count s / 5) by (apply Z.div_le_lower_bound; lia). lia.
  - unfold generateGroups. f_equal. apply for_ext. intros st_ t Hs. apply for_ext. intros ix (l3, c3) Hi. nia.
Qed.

(** Grouping divides by zero exactly when a message is due for a length with less than 5
    subsequences. *)
Lemma global_group_crash ratio thr clock : 0 <= set_len s + 1 ->
  lt (half_of N thr) (ninf N) ->
  (exists l, 2 <= l <= set_len s /\ crashes clock l = true) ->
  global_group N h ratio s "euclidean" thr clock = UB DivZero.
Proof.
  intros H0 Hinf (l & Hl & Hc).
  pose proof (global_group_spec ratio thr (fun _ => false) H0 Hinf ltac:(discriminate)) as P.
  apply Post_inv in P as (r & E & _). unfold global_group in *.
  replace (getDistance "euclidean") with (Ok DPairwise) in * by reflexivity. cbn [bind] in *.
  apply bind_Ok_inv in E as (sp & Es & E). rewrite Es. cbn [bind]. apply bind_Ok_inv in E as (x & Ex & _).
  assert (Zs : zlen sp = set_len s + 1).
  { unfold resize_null in Es. destruct (Z.ltb_spec (set_len s + 1) 0); [lia|]. injection Es as <-. apply zlen_zrepeat. lia. }
  erewrite for_crash; [reflexivity| |exact Ex|exists l; split; [lia|exact Hc]].
  intros j (sp', t). cbn beta iota. unfold new_lspace.
  unfold crashes. destruct (Z.ltb_spec (set_count s * (set_len s - j + 1)) 0) as [Hn|Hn].
  - cbn [bind]. destruct (Z.leb_spec 1 ((set_len s - j + 1) * set_count s)); [nia|]. rewrite andb_false_r. reflexivity.
  - cbn [bind]. rewrite generateGroups_log. cbn [ls_sub].
    destruct (clock j && (1 <=? (set_len s - j + 1) * set_count s) && ((set_len s - j + 1) * set_count s <? 5)) eqn:C; [|reflexivity].
    assert (0 < set_len s - j + 1).
    { apply andb_prop in C as (C & _). apply andb_prop in C as (_ & C). apply Z.leb_le in C. nia. }
    destruct (Z.ltb_spec 0 (set_len s - j + 1)); [reflexivity|lia].
Qed.

(** What the methods of the groups show. *)
Lemma ls_groups_are L ls gm gs : 1 <= L <= set_len s -> zget (gs_spaces N gs) L = Ok (Some ls) ->
  ls_ok N h s b L ls gm -> groups_are N h s data gs L gm.
Proof.
  intros HL Hz H. exists ls. split; auto. split; [apply H|]. intros i g ms Hg Hm.
  unfold getGroup in Hg. destruct ((i <? 0) || (getNumberOfGroups N ls <=? i)); [discriminate|].
  pose proof H as (_ & _ & _ & _ & E5 & _ & Hv). destruct (E5 _ _ _ Hg Hm) as (G1 & G2 & G3 & G4 & G5 & G6 & G7 & G8 & G9).
  assert (Vm : forall c, In c ms -> valid s L c) by (eapply ls_members_valid; eauto).
  split; auto. split; auto. split.
  { rewrite (same_read N h _ _ G7). apply read_view; auto. apply Vm, hd_in; auto. }
  exists (map (view N s b L) (rev ms)). split.
  { eapply getMembers_spec; eauto. }
  split.
  { rewrite map_map. rewrite <- (map_id (rev ms)) at 2. apply map_ext. now intros (x, y). }
  intros t Ht. apply in_map_iff in Ht as (c & <- & Hc). apply in_rev in Hc. split; [reflexivity|].
  pose proof (read_view N h s b data Hheap Hsize L HL c (Vm c Hc)) as Rv. rewrite Rv. now destruct c.
Qed.

Lemma groups_are_unique gs L gm gm' : groups_are N h s data gs L gm -> groups_are N h s data gs L gm' -> gm = gm'.
Proof.
  intros (ls & E & Hn & H) (ls' & E' & Hn' & H'). rewrite E in E'. injection E' as <-.
  assert (X : forall i, zget gm i = zget gm' i).
  { intros i. destruct (Z.ltb_spec i 0) as [Hi|Hi]; [|destruct (Z.ltb_spec i (zlen gm)) as [Hi'|Hi']].
    - unfold zget. destruct (Z.ltb_spec i 0); auto; lia.
    - destruct (zget_Ok gm i) as (ms & Ems); [lia|]. destruct (zget_Ok gm' i) as (ms' & Ems'); [lia|].
      destruct (zget_Ok (ls_groups N ls) i) as (g & Eg); [unfold getNumberOfGroups in *; lia|].
      assert (Hg : getGroup N ls i = Ok g).
      { unfold getGroup. destruct (Z.ltb_spec i 0); [lia|]. destruct (Z.leb_spec (getNumberOfGroups N ls) i); [lia|]. exact Eg. }
      destruct (H _ _ _ Hg Ems) as (_ & _ & _ & l & El & Em & _).
      destruct (H' _ _ _ Hg Ems') as (_ & _ & _ & l' & El' & Em' & _).
      rewrite El in El'. injection El' as <-. rewrite Em in Em'. apply (f_equal (@rev _)) in Em'. rewrite !rev_involutive in Em'.
      rewrite Ems, Ems'. now f_equal.
    - unfold zget. destruct (Z.ltb_spec i 0); [lia|].
      assert (A : nth_error gm (Z.to_nat i) = None) by (apply nth_error_None; unfold zlen in *; lia).
      assert (B : nth_error gm' (Z.to_nat i) = None) by (apply nth_error_None; unfold zlen in *; lia).
      now rewrite A, B. }
  assert (Y : List.length gm = List.length gm') by (unfold zlen in *; lia).
  apply (nth_ext gm gm' [] []); auto. intros n Hnn. specialize (X (Z.of_nat n)).
  rewrite (zget_nth gm _ []) in X by (unfold zlen; lia). rewrite (zget_nth gm' _ []) in X by (unfold zlen; lia).
  rewrite Nat2Z.id in X. now injection X.
Qed.
End GlobalGroup.

Section ApiGroup.
Context (N : NumOps) (dat pos : num N -> Prop).
Local Notation T := (num N).
Local Notation lt := (Laws.lt N).

Lemma nth_list_set {A} (l : list A) n x : (n < List.length l)%nat -> nth_error (list_set l n x) n = Some x.
Proof. apply list_set_nth_error_eq. Qed.
Lemma check_inv σ i d : checkDatasetIndex N σ i = Ok d ->
  0 <= i < zlen (st_sets N σ) /\ nth_error (st_sets N σ) (Z.to_nat i) = Some (Some d).
Proof.
  unfold checkDatasetIndex. destruct (Z.ltb_spec i 0); cbn [orb]; [discriminate|].
  destruct (Z.leb_spec (zlen (st_sets N σ)) i); [discriminate|].
  destruct (nth_error _ _) as [[d'|]|] eqn:E; try discriminate. intros H'. injection H' as ->. split; auto.
Qed.
Lemma check_put σ i d : 0 <= i < zlen (st_sets N σ) -> checkDatasetIndex N (put_set N σ i (Some d)) i = Ok d.
Proof.
  intros H. unfold checkDatasetIndex, put_set, with_sets. cbn [st_sets].
  unfold zlen in *. rewrite list_set_length. destruct (Z.ltb_spec i 0); [lia|]. cbn [orb].
  destruct (Z.leb_spec (Z.of_nat (List.length (st_sets N σ))) i); [lia|]. rewrite nth_list_set by lia. reflexivity.
Qed.
Lemma check_put_other σ i j d : 0 <= i < zlen (st_sets N σ) -> i <> j ->
  checkDatasetIndex N (put_set N σ i (Some d)) j = checkDatasetIndex N σ j.
Proof.
  intros H Hij. unfold checkDatasetIndex, put_set, with_sets. cbn [st_sets]. unfold zlen in *. rewrite list_set_length.
  destruct (Z.ltb_spec j 0); cbn [orb]; auto. destruct (Z.leb_spec (Z.of_nat (List.length (st_sets N σ))) j); auto.
  rewrite list_set_nth_error_neq by lia. reflexivity.
Qed.

(** What [api_group] does when it returns. *)
Lemma api_group_inv σ i thr σ' n gs d data : grouped N σ i thr σ' n gs -> dataset N σ i d data ->
  st_heap N σ' = st_heap N σ /\
  checkDatasetIndex N σ' i = Ok (mkDS N (ds_set N d) (Some gs) (Some thr)) /\
  exists clock, global_group N (st_heap N σ) (st_ratio N σ) (ds_set N d) "euclidean" thr clock = Ok (gs, n).
Proof.
  intros (clock & d' & E & Hd' & Hg) (Hd & b & Hb & _). unfold api_group in E. rewrite Hd in E. cbn [lift] in E.
  unfold isLoaded in E. rewrite Hb in E. cbn [negb] in E.
  destruct (check_inv _ _ _ Hd) as (Hr & _).
  destruct (global_group _ _ _ _ _ _ _) as [(gs', n')| | |] eqn:Eg; try discriminate.
  injection E as E1 E2. subst n'.
  set (s1 := put_set N σ i (Some (mkDS N (ds_set N d) (Some gs') (Some thr)))) in *.
  assert (C : checkDatasetIndex N σ' i = Ok (mkDS N (ds_set N d) (Some gs') (Some thr))).
  { subst σ'. pose proof (check_put σ i (mkDS N (ds_set N d) (Some gs') (Some thr)) Hr) as Hc. fold s1 in Hc.
    destruct (2 <=? set_len (ds_set N d)); exact Hc. }
  rewrite C in Hd'. injection Hd' as <-. cbn [ds_groups] in Hg. injection Hg as ->.
  split; [|split; eauto]. subst σ'. now destruct (2 <=? set_len (ds_set N d)).
Qed.

Theorem grouped_spec σ i thr σ' n gs d data : grouped N σ i thr σ' n gs -> dataset N σ i d data ->
  set_len (ds_set N d) <= 2 ^ 30 -> lt (half_of N thr) (ninf N) ->
  exists b, set_buf (ds_set N d) = Some b /\ heap_get N (st_heap N σ) b = Ok data /\
   0 <= set_count (ds_set N d) /\ set_count (ds_set N d) * set_len (ds_set N d) <= zlen data /\
   zlen (gs_spaces N gs) = set_len (ds_set N d) + 1 /\
   n = zsum (map (ngroups N) (gs_spaces N gs)) /\
   (forall L, 0 <= L < 2 -> L <= set_len (ds_set N d) -> zget (gs_spaces N gs) L = Ok None) /\
   (forall L, 2 <= L <= set_len (ds_set N d) -> space_ok N dat pos (st_heap N σ) (ds_set N d) b data (half_of N thr) gs L).
Proof.
  intros G D Hlen Hinf. destruct (api_group_inv _ _ _ _ _ _ _ _ G D) as (_ & _ & clock & E).
  destruct D as (_ & b & Hb & Hh & Hc & Hs). exists b. split; auto. split; auto. split; auto. split; auto.
  apply (global_group_clock N) in E.
  assert (H0 : 0 <= set_len (ds_set N d) + 1).
  { unfold global_group in E. apply bind_Ok_inv in E as (k & _ & E). apply bind_Ok_inv in E as (sp & E & _).
    unfold resize_null in E. destruct (Z.ltb_spec (set_len (ds_set N d) + 1) 0); [discriminate|]. auto. }
  pose proof (global_group_spec N dat pos (st_heap N σ) (ds_set N d) b data Hb Hh Hlen Hc Hs (st_ratio N σ) thr (fun _ => false) H0 Hinf)
    as P. destruct (Post_inv _ _ (P ltac:(discriminate))) as (r & Er & A & B & C & D & _). rewrite E in Er. injection Er as <-.
  cbn [fst snd] in *. auto.
Qed.

(** The members, as the methods show them, satisfy the rules. *)
Theorem grouped_rules σ i thr σ' n gs d data : grouped N σ i thr σ' n gs -> dataset N σ i d data ->
  set_len (ds_set N d) <= 2 ^ 30 -> lt (half_of N thr) (ninf N) ->
  forall L, 2 <= L <= set_len (ds_set N d) -> 
  exists gm, groups_are N (st_heap N σ') (ds_set N d) data gs L gm /\ NoDup (concat gm) /\
    (forall c, In c (concat gm) <-> is_sub (set_count (ds_set N d)) (set_len (ds_set N d)) L c) /\
    rules N dat pos (ds_set N d) data L (half_of N thr) gm.
Proof.
  intros G D Hlen Hinf L HL. destruct (api_group_inv _ _ _ _ _ _ _ _ G D) as (Hh & _).
  destruct (grouped_spec _ _ _ _ _ _ _ _ G D Hlen Hinf) as (b & B1 & B2 & B3 & B4 & _ & _ & _ & B5).
  destruct (B5 L HL) as (ls & gm & E & H & Hv & R). exists gm. split; [|split; [apply H|split; auto]].
  rewrite Hh. eapply ls_groups_are; eauto. lia.
Qed.
Lemma grouped_rules_of σ i thr σ' n gs d data : grouped N σ i thr σ' n gs -> dataset N σ i d data ->
  set_len (ds_set N d) <= 2 ^ 30 -> lt (half_of N thr) (ninf N) ->
  forall L gm, 2 <= L <= set_len (ds_set N d) -> groups_are N (st_heap N σ') (ds_set N d) data gs L gm ->
  NoDup (concat gm) /\ (forall ms, In ms gm -> ms <> []) /\
  (forall c, In c (concat gm) <-> is_sub (set_count (ds_set N d)) (set_len (ds_set N d)) L c) /\
  rules N dat pos (ds_set N d) data L (half_of N thr) gm.
Proof.
  intros G D Hlen Hinf L gm HL Hgm. destruct (grouped_rules _ _ _ _ _ _ _ _ G D Hlen Hinf L HL) as (gm' & H & H1 & H2 & H3).
  rewrite (groups_are_unique N _ _ _ _ _ _ _ Hgm H). split; auto. split; auto.
  intros ms Hms. apply in_zget in Hms as (k & Hk & Ek). destruct H as (ls & _ & En & H).
  destruct (zget_Ok (ls_groups N ls) k) as (g & Eg); [unfold getNumberOfGroups in En; lia|].
  eapply (H k g ms); auto. unfold getGroup. destruct (Z.ltb_spec k 0); [lia|].
  destruct (Z.leb_spec (getNumberOfGroups N ls) k); [lia|]. exact Eg.
Qed.

(** Whether a progress message is due for length [l]: the first grouping of a process always logs. *)
Definition due (σ : st N) (clock : Z -> bool) (l : Z) : bool := clock l || (negb (st_logged N σ) && (l =? 2)).

Theorem group_returns σ i thr d data clock : dataset N σ i d data -> set_len (ds_set N d) <= 2 ^ 30 ->
  0 <= set_len (ds_set N d) + 1 -> lt (half_of N thr) (ninf N) ->
  (forall l, 2 <= l <= set_len (ds_set N d) -> due σ clock l = true -> 1 <= set_count (ds_set N d) -> 5 <= (set_len (ds_set N d) - l + 1) * set_count (ds_set N d)) ->
  exists σ' n gs, api_group N σ i thr clock = Done N σ' (VInt N n) /\ grouped N σ i thr σ' n gs.
Proof.
  intros (Hd & b & B1 & B2 & B3 & B4) Hlen H0 Hinf Hlog.
  pose proof (global_group_spec N dat pos (st_heap N σ) (ds_set N d) b data B1 B2 Hlen B3 B4 (st_ratio N σ) thr (due σ clock) H0 Hinf Hlog) as P.
  apply Post_inv in P as ((gs & n) & E & _).
  assert (A : api_group N σ i thr clock = Done N (let s' := put_set N σ i (Some (mkDS N (ds_set N d) (Some gs) (Some thr))) in
          if 2 <=? set_len (ds_set N d) then with_logged N s' true else s') (VInt N n)).
  { unfold api_group. rewrite Hd. cbn [lift]. unfold isLoaded. rewrite B1. cbn [negb]. change (fun l => clock l || (negb (st_logged N σ) && (l =? 2))) with (due σ clock).
    rewrite E. reflexivity. }
  eexists _, n, gs. split; [exact A|]. exists clock, (mkDS N (ds_set N d) (Some gs) (Some thr)). split; [exact A|].
  destruct (check_inv _ _ _ Hd) as (Hr & _).
  pose proof (check_put σ i (mkDS N (ds_set N d) (Some gs) (Some thr)) Hr) as C.
  split; [|reflexivity]. cbn zeta. destruct (2 <=? set_len (ds_set N d)); exact C.
Qed.
Theorem group_crashes σ i thr d data clock : dataset N σ i d data -> set_len (ds_set N d) <= 2 ^ 30 ->
  lt (half_of N thr) (ninf N) ->
  (exists l, 2 <= l <= set_len (ds_set N d) /\ due σ clock l = true /\
     1 <= (set_len (ds_set N d) - l + 1) * set_count (ds_set N d) < 5) ->
  api_group N σ i thr clock = Bad N DivZero.
Proof.
  intros (Hd & b & B1 & B2 & B3 & B4) Hlen Hinf (l & Hl & Hdue & Ht).
  unfold api_group. rewrite Hd. cbn [lift]. unfold isLoaded. rewrite B1. cbn [negb]. change (fun l => clock l || (negb (st_logged N σ) && (l =? 2))) with (due σ clock).
  rewrite (global_group_crash N dat pos (st_heap N σ) (ds_set N d) b data B1 B2 Hlen B3 B4); auto; [lia|].
  exists l. split; auto. unfold crashes. rewrite Hdue. cbn [andb].
  destruct (Z.leb_spec 1 ((set_len (ds_set N d) - l + 1) * set_count (ds_set N d))); [|lia].
  destruct (Z.ltb_spec ((set_len (ds_set N d) - l + 1) * set_count (ds_set N d)) 5); [reflexivity|lia].
Qed.
Lemma log_cases σ d clock :
  (exists l, 2 <= l <= set_len (ds_set N d) /\ due σ clock l = true /\
     1 <= (set_len (ds_set N d) - l + 1) * set_count (ds_set N d) < 5) \/
  (forall l, 2 <= l <= set_len (ds_set N d) -> due σ clock l = true -> 1 <= set_count (ds_set N d) ->
     5 <= (set_len (ds_set N d) - l + 1) * set_count (ds_set N d)).
Proof.
  set (len := set_len (ds_set N d)). set (cnt := set_count (ds_set N d)).
  set (P := fun l => due σ clock l && (1 <=? cnt) && ((len - l + 1) * cnt <? 5)).
  destruct (existsb (fun k => P (Z.of_nat k)) (seq 2 (Z.to_nat (len - 1)))) eqn:Ex.
  - left. apply existsb_exists in Ex as (k & Hk & HP). apply in_seq in Hk. unfold P in HP.
    apply andb_prop in HP as (H1 & H2). apply andb_prop in H1 as (H1 & H3). apply Z.ltb_lt in H2. apply Z.leb_le in H3.
    exists (Z.of_nat k). split; [lia|]. split; auto. nia.
  - right. intros l Hl Hd Hc. destruct (Z.leb_spec 5 ((len - l + 1) * cnt)) as [|Hlt]; auto. exfalso.
    assert (X : existsb (fun k => P (Z.of_nat k)) (seq 2 (Z.to_nat (len - 1))) = true); [|congruence].
    apply existsb_exists. exists (Z.to_nat l). split; [apply in_seq; lia|]. unfold P. rewrite Z2Nat.id by lia. rewrite Hd.
    cbn [andb]. rewrite (proj2 (Z.leb_le 1 cnt) Hc). now apply Z.ltb_lt.
Qed.
End ApiGroup.