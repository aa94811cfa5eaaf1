(** * Property C70: grouping and matching in the single-precision build.

    [F32] (Single.v) is the arithmetic of the build with SINGLE_PRECISION: [Sg x] is the float [x],
    [Db x] the double [x]; the warping band ratio of a session is a double.  The vocabulary of groups
    and matches is in GroupSpec.v, as for C17, C18, C25 and C26. *)
From Coq Require Import ZArith Bool Reals Lra Lia SpecFloat String List.
From Flocq Require Import Core.
From Verif Require Import Outcome Num Single Lemire Distance TimeSeries Text Dataset Groups Api Laws F32Base F32Laws F32Numeric Spec SafeDist SingleProofs.
From Verif Require Import TsProofs TraverseProofs GroupSpec GroupProofs GlobalGroup MatchProofs SimProofs SessionProofs SessionMatch.
From Verif Require Properties_Groups Properties_Match F64Base.
Import ListNotations.
Open Scope Z_scope.

(** Floats of size at most 2^50. *)
Definition smallS (v : mixed) : Prop := match v with Sg x => small32 x | _ => False end.

(** ** Half of a threshold. *)
Lemma halfS t : half_of F32 (Sg t) = Sg (ndiv B32 t (f32_ofZ 2)).
Proof. exact (div_ofZ t 2). Qed.
Lemma val_2 : val (f32_ofZ 2) = 2%R.
Proof. destruct (ofZ_exact 2) as (_ & ->); [lia|reflexivity]. Qed.
Lemma half32_val t : fin32 t -> ok32 (ndiv B32 t (f32_ofZ 2)) /\ val (ndiv B32 t (f32_ofZ 2)) = clip (rnd (val t / 2)).
Proof.
  intros F. cbn [ndiv B32]. destruct (div_rnd t (f32_ofZ 2)) as (A & B); auto.
  - apply ofZ_exact. lia.
  - rewrite val_2. lra.
  - split; auto. rewrite B, val_2. reflexivity.
Qed.
Lemma half32_lt_inf t : fin32 t -> lt F32 (half_of F32 (Sg t)) (ninf F32).
Proof.
  intros F. rewrite halfS. destruct (half32_val t F) as (A & B).
  change (lt B32 (ndiv B32 t (f32_ofZ 2)) (S754_infinity false)). apply lt32; auto.
  { apply pos_ok, pos_inf32. }
  rewrite B. change (val (S754_infinity false)) with BIG. pose proof (val_fin_bound t F). pose proof BIG_gt0.
  assert (X : (val t / 2 <= Rmax (val t) 0)%R) by (unfold Rmax; destruct (Rle_dec (val t) 0); lra).
  apply rnd_le in X. apply clip_le in X. eapply Rle_lt_trans; [exact X|].
  unfold Rmax. destruct (Rle_dec (val t) 0).
  - rewrite rnd_0, clip_id; lra.
  - rewrite rnd_val by auto. rewrite clip_id; lra.
Qed.
Lemma half32_pos t : fin32 t -> le B32 (f32_ofZ 0) t -> le F32 (nzero F32) (half_of F32 (Sg t)).
Proof.
  intros F P. rewrite halfS. destruct (half32_val t F) as (A & B).
  change (le B32 (S754_zero false) (ndiv B32 t (f32_ofZ 2))). change (le B32 (S754_zero false) t) in P.
  apply le32 in P; [|apply pos_ok, pos_zero32|now apply fin_ok].
  apply le32; auto; [apply pos_ok, pos_zero32|]. rewrite B. change (val (S754_zero false)) with 0%R in *. apply clip_pos, rnd_pos. lra.
Qed.

(** ** Grouping. *)
Theorem C70_groups_partition : forall (σ : st F32) i thr σ' n gs d data,
  grouped F32 σ i (Sg thr) σ' n gs -> dataset F32 σ i d data -> set_len (ds_set F32 d) <= 2 ^ 30 -> fin32 thr ->
  forall L, 2 <= L <= set_len (ds_set F32 d) ->
  exists gm, groups_are F32 (st_heap F32 σ') (ds_set F32 d) data gs L gm /\ NoDup (concat gm) /\
    forall c, List.In c (concat gm) <-> is_sub (set_count (ds_set F32 d)) (set_len (ds_set F32 d)) L c.
Proof.
  intros σ i thr σ' n gs d data G D Hlen Hf L HL.
  destruct (grouped_rules F32 finS posS _ _ _ _ _ _ _ _ G D Hlen (half32_lt_inf _ Hf) L HL) as (gm & A & B & C & _). eauto.
Qed.

Theorem C70_members_within_half_threshold : forall (σ : st F32) i thr σ' n gs d data,
  grouped F32 σ i (Sg thr) σ' n gs -> dataset F32 σ i d data -> set_len (ds_set F32 d) <= 2 ^ 30 ->
  Forall finS data -> fin32 thr -> le B32 (f32_ofZ 0) thr ->
  forall L gm ms c, 2 <= L <= set_len (ds_set F32 d) ->
  groups_are F32 (st_heap F32 σ') (ds_set F32 d) data gs L gm -> List.In ms gm -> List.In c ms ->
  exists x, dist_is F32 (sub_values F32 data (set_len (ds_set F32 d)) L (hd (0, 0) ms))
                        (sub_values F32 data (set_len (ds_set F32 d)) L c) (Sg x) /\
    le B32 x (ndiv B32 thr (f32_ofZ 2)).
Proof.
  intros σ i thr σ' n gs d data G D Hlen Hdat Hf H0 L gm ms c HL Hgm Hms Hc.
  destruct (grouped_rules_of F32 finS posS _ _ _ _ _ _ _ _ G D Hlen (half32_lt_inf _ Hf) L gm HL Hgm) as (_ & Hne & Hv & R).
  destruct D as (_ & b & _ & _ & _ & Hs).
  assert (LW : lawful F32 finS posS data) by (split; auto; apply f32_cost).
  assert (Vc : valid (ds_set F32 d) L c) by (apply Hv, in_concat; eauto).
  assert (Vh : valid (ds_set F32 d) L (hd (0, 0) ms)) by (apply Hv, in_concat; exists ms; split; auto; apply hd_in; auto).
  assert (X : dist_is F32 (sub_values F32 data (set_len (ds_set F32 d)) L (hd (0, 0) ms))
     (sub_values F32 data (set_len (ds_set F32 d)) L c) (V F32 (ds_set F32 d) data L (hd (0, 0) ms) c) /\
     le F32 (V F32 (ds_set F32 d) data L (hd (0, 0) ms) c) (half_of F32 (Sg thr))).
  { split.
    - apply (V_pairwise F32 finS posS); auto; lia.
    - apply in_zget in Hms as (k & _ & Hk). destruct (r_radius _ _ _ _ _ _ _ _ R LW k ms c Hk Hc) as [->|H]; auto.
      rewrite (V_self F32 finS posS) by (auto; lia). now apply half32_pos. }
  destruct X as (X1 & X2).
  assert (P : posS (V F32 (ds_set F32 d) data L (hd (0, 0) ms) c)) by (apply (V_pos F32 finS posS); auto; lia).
  apply posS_inv in P as (x & Ex & _). rewrite Ex in X1, X2. rewrite halfS in X2. exists x. split; auto.
Qed.

(** ** Matching: the hypotheses. *)
Definition askS (IO : NumIO F32) writable (σ : st F32) i thr t data q ix a e qv : Prop :=
  grouped_earlier F32 IO writable σ i (Sg thr) t data /\ fin32 thr /\
  Forall smallS data /\ Forall smallS qv /\ set_len t <= 2 ^ 20 /\ 1 <= set_count t /\
  (exists x, st_ratio F32 σ = Db x /\ Properties_Match.ratio_ok64 x (set_len t)) /\
  query_is F32 σ q ix a e qv /\ 2 <= zlen qv <= set_len t.

(** No float below [d] is above [w]: [w] is not better than [d] by more than one unit in the last place. *)
Definition not_better32 (d w : mixed) : Prop := forall y, fin32 y -> lt F32 (Sg y) d -> le F32 (Sg y) w.

Lemma small_finS v : smallS v -> finS v.
Proof. destruct v; cbn; try contradiction. apply small_fin. Qed.
Lemma smallS_map l : Forall smallS l -> exists x, l = map Sg x /\ Forall small32 x.
Proof.
  induction 1 as [|v l Hv _ (x & -> & Hx)]; [exists []; auto|].
  destruct v as [y| |]; try contradiction. exists (y :: x). split; auto.
Qed.
Lemma no_overflow_S (a b : list mixed) r : Forall smallS a -> Forall smallS b -> zlen a <= 2 ^ 20 -> zlen b <= 2 ^ 20 ->
  no_overflow F32 a b r.
Proof.
  intros Ha Hb La Lb. apply smallS_map in Ha as (x & -> & Hx). apply smallS_map in Hb as (y & -> & Hy).
  rewrite zlen_map in La, Lb. apply no_overflow_Sg. now apply no_overflow_32.
Qed.
Lemma band_funS x len : Properties_Match.ratio_ok64 x len -> len <= 2 ^ 26 -> exists bw, band_fun F32 (Db x) len bw.
Proof.
  intros H Hl. destruct (Properties_Match.band_fun64 x len H Hl) as (bw & B1 & B2). exists bw. split; auto.
  intros k Hk. rewrite band_S by lia. now apply B1.
Qed.

Lemma useS IO writable σ i thr t data q ix a e qv : askS IO writable σ i thr t data q ix a e qv ->
  exists bw, band_fun F32 (st_ratio F32 σ) (set_len t) bw /\
  exists σ' gmf d L gi ms c b, let W := W F32 t data qv (st_ratio F32 σ) in
  api_match F32 σ i q ix a e = Done F32 σ' (VCand F32 (mkCand (view F32 t b L c) (W L c))) /\
  ready F32 σ i d data gmf /\ ds_set F32 d = t /\
  found F32 not_better32 t data qv (st_ratio F32 σ) bw gmf L gi ms c /\
  denotes F32 (st_heap F32 σ') t data (mkCand (view F32 t b L c) (W L c)) L c /\
  (forall L c, 2 <= L <= set_len t -> valid t L c ->
     dtw_is F32 (st_ratio F32 σ) qv (sub_values F32 data (set_len t) L c) (W L c) /\ posS (W L c)) /\
  (forall L c, 2 <= L <= set_len t -> valid t L c -> bw (Z.max (zlen qv) L) < Z.abs (L - zlen qv) -> W L c = ninf F32).
Proof.
  intros (G & Hh & Hd & Hq & Hlen & Hc & (x0 & Hx0 & Hr) & Q & Hql).
  assert (Hfd : Forall finS data) by (eapply Forall_impl; [|exact Hd]; apply small_finS).
  assert (Hfq : Forall finS qv) by (eapply Forall_impl; [|exact Hq]; apply small_finS).
  assert (Hsz : set_count t * set_len t <= zlen data).
  { destruct G as (? & d & ? & ? & ? & ? & ? & (_ & b & _ & _ & _ & Hs) & <- & _). exact Hs. }
  destruct (band_funS _ _ Hr ltac:(lia)) as (bw & B). rewrite <- Hx0 in B. exists bw. split; auto.
  apply (earlier_match F32 IO writable finS posS f32_cost not_better32) with (thr := Sg thr); auto; try lia.
  - intros x w Px Pw Hle y Fy Hy. apply posS_inv in Px as (x' & -> & Px). apply posS_inv in Pw as (w' & -> & Pw).
    change (lt B32 y x') in Hy. change (le B32 x' w') in Hle. change (le B32 y w').
    apply le32; auto using fin_ok, pos_ok.
    apply lt32 in Hy; auto using fin_ok, pos_ok. apply le32 in Hle; auto using pos_ok. lra.
  - intros x C0 k Hk Px PC Hlt y Fy Hy. apply posS_inv in Px as (x' & -> & Px). apply posS_inv in PC as (C' & -> & PC).
    rewrite idtw_Sg in Hlt. rewrite ndtw_Sg. now apply (drop_margin32 x' C' k).
  - intros x x' w Px Px' Pw Hle Hnb y Fy Hy. apply Hnb; auto.
    apply posS_inv in Px as (x1 & -> & Px). apply posS_inv in Px' as (x2 & -> & Px').
    change (lt B32 y x2) in Hy. change (le B32 x2 x1) in Hle. change (lt B32 y x1).
    apply lt32; auto using fin_ok, pos_ok.
    apply lt32 in Hy; auto using fin_ok, pos_ok. apply le32 in Hle; auto using pos_ok. lra.
  - now apply half32_lt_inf.
  - intros L c HL Hv. apply no_overflow_S; auto.
    + apply Forall_forall. intros x Hx. rewrite Forall_forall in Hd. apply Hd. eapply in_slice; eauto.
    + change (num F32) with mixed in *. lia.
    + change (num F32) with mixed in *. rewrite (vals_len F32 t data) by (auto; lia). lia.
Qed.

(** A match succeeds and is a subsequence of the dataset with its true, finite warped distance. *)
Theorem C70_match_is_real : forall IO writable σ i thr t data q ix a e qv,
  askS IO writable σ i thr t data q ix a e qv ->
  exists σ' c, api_match F32 σ i q ix a e = Done F32 σ' (VCand F32 c) /\
    exists L p, denotes F32 (st_heap F32 σ') t data c L p /\
      dtw_is F32 (st_ratio F32 σ) qv (sub_values F32 data (set_len t) L p) (cand_dist c) /\
      lt F32 (cand_dist c) (ninf F32).
Proof.
  intros IO writable σ i thr t data q ix a e qv A.
  destruct (useS _ _ _ _ _ _ _ _ _ _ _ _ A) as (bw & B & σ' & gmf & d & L & gi & ms & c & b & E & R & Et & F & Dn & Hall & Hfar).
  destruct F as (HL & _ & _ & Hv & Hlt & _). eexists σ', _. split; [exact E|]. exists L, c. split; auto. split; auto.
  cbn [cand_dist]. now apply Hall.
Qed.

(** It is a best member of a group with a best representative, as long as no float lies strictly
    between. *)
Theorem C70_best_group_best_member : forall IO writable σ i thr t data q ix a e qv,
  askS IO writable σ i thr t data q ix a e qv ->
  exists σ' c L p gm ms, api_match F32 σ i q ix a e = Done F32 σ' (VCand F32 c) /\
    denotes F32 (st_heap F32 σ') t data c L p /\
    dtw_is F32 (st_ratio F32 σ) qv (sub_values F32 data (set_len t) L p) (cand_dist c) /\
    groups_now F32 σ i t data L gm /\ List.In ms gm /\ List.In p ms /\
    (forall p', List.In p' ms -> exists w, dtw_is F32 (st_ratio F32 σ) qv (sub_values F32 data (set_len t) L p') w /\
       not_better32 (cand_dist c) w) /\
    exists d, dtw_is F32 (st_ratio F32 σ) qv (sub_values F32 data (set_len t) L (hd (0, 0) ms)) d /\
      forall L' gm' ms', 2 <= L' <= set_len t -> groups_now F32 σ i t data L' gm' -> List.In ms' gm' ->
        exists w, dtw_is F32 (st_ratio F32 σ) qv (sub_values F32 data (set_len t) L' (hd (0, 0) ms')) w /\ not_better32 d w.
Proof.
  intros IO writable σ i thr t data q ix a e qv A.
  destruct (useS _ _ _ _ _ _ _ _ _ _ _ _ A) as (bw & B & σ' & gmf & d & L & gi & ms & c & b & E & R & <- & F & Dn & Hall & Hfar).
  destruct F as (HL & Hgi & Hin & Hv & Hlt & Hlh & Hmem & Hrep).
  assert (Hne : forall L ms, 2 <= L <= set_len (ds_set F32 d) -> List.In ms (gmf L) -> ms <> [] /\ forall c, List.In c ms -> valid (ds_set F32 d) L c).
  { intros L0 ms0 HL0 Hms0. apply (ready_members F32 _ _ _ _ _ R L0 ms0 HL0 Hms0). }
  apply zget_in in Hgi as Hms.
  eexists σ', _, L, c, (gmf L), ms. split; [exact E|]. split; [exact Dn|].
  split; [now apply Hall|]. split; [now apply (ready_now F32 σ i d data gmf)|]. split; auto. split; auto.
  destruct (Hne _ _ HL Hms) as (N1 & N2). split.
  - intros p' Hp'. exists (W F32 (ds_set F32 d) data qv (st_ratio F32 σ) L p'). split; [apply Hall; auto|]. cbn [cand_dist]. now apply Hmem.
  - exists (W F32 (ds_set F32 d) data qv (st_ratio F32 σ) L (hd (0, 0) ms)). split; [apply Hall; auto using hd_in|].
    intros L' gm' ms' HL' Hg' Hms'. apply (ready_now F32 σ i d data gmf L' gm' R HL') in Hg' as ->.
    destruct (Hne _ _ HL' Hms') as (N1' & N2').
    exists (W F32 (ds_set F32 d) data qv (st_ratio F32 σ) L' (hd (0, 0) ms')). split; [apply Hall; auto using hd_in|].
    destruct (Z_le_dec (Z.abs (L' - zlen qv)) (bw (Z.max L' (zlen qv)))) as [Hn|Hn].
    + apply Hrep; auto. right. split; auto. apply B.
    + rewrite (Hfar L' (hd (0, 0) ms')); auto using hd_in; [|rewrite Z.max_comm; lia].
      intros y Fy _.
      change (le B32 y (S754_infinity false)). apply le32; auto using fin_ok, pos_ok, pos_inf32.
      apply val_fin_bound in Fy. rewrite val_inf. lra.
Qed.

(** ** A session that meets the hypotheses: three series of three floats, grouped with threshold 1, then
    the ratio is set to 0. *)
Definition exZ (z : Z) : mixed := Sg (f32_ofZ z).
Example C70_case : exists σ,
  askS (mkNumIO F32 (fun _ _ => []) (fun _ => UB NullDeref) (fun t => (Sg (f32_ofZ 0), false, t))) (fun _ => true)
    σ 0 (f32_ofZ 1) Properties_Groups.ex_set (map exZ Properties_Groups.ex_ints) 0 1 1 3 (map exZ [1; 3]).
Proof.
  assert (F1 : fin32 (f32_ofZ 1)) by (split; [reflexivity|exact I]).
  assert (SM : forall l, forallb (fun z => Z.abs z <=? 2 ^ 24)%Z l = true -> Forall smallS (map exZ l)).
  { intros l H. apply small32_Zs in H. apply Forall_map. exact (proj1 (Forall_map f32_ofZ small32 l) H). }
  destruct (Properties_Groups.ex_grouped F32 finS posS exZ (Sg (f32_ofZ 1)) (half32_lt_inf _ F1)) as (σ1 & n & gs & G).
  exists (mkSt F32 (st_heap F32 σ1) (st_sets F32 σ1) (st_count F32 σ1) (Db (S754_zero false)) (st_logged F32 σ1) (st_files F32 σ1)).
  split; [|split; [exact F1|split; [now apply SM|split; [now apply SM|]]]].
  - exists (Properties_Groups.ex_st F32 exZ), (mkDS F32 Properties_Groups.ex_set None None), σ1, n, gs, [OpSetRatio F32 (Db (S754_zero false))].
    split; [apply Properties_Match.ex_wf|]. split; [apply Properties_Groups.ex_dataset|].
    split; auto. split; auto. split; [|reflexivity]. constructor; auto. exact I.
  - split; [cbn; lia|]. split; [cbn; lia|]. split; [|split].
    + exists (S754_zero false). split; [reflexivity|]. unfold Properties_Match.ratio_ok64.
      split; [split; [reflexivity|exact I]|]. cbn [F64Base.val]. split; [lra|]. rewrite Rmult_0_r. apply IZR_le. unfold int_max. lia.
    + destruct (api_group_inv F32 _ _ _ _ _ _ _ _ G (Properties_Groups.ex_dataset F32 exZ)) as (Hh & C & _).
      exists (mkDS F32 Properties_Groups.ex_set (Some gs) (Some (Sg (f32_ofZ 1)))), (map exZ Properties_Groups.ex_ints). split.
      * split; auto. exists 0%nat. cbn [ds_set st_heap]. rewrite Hh. repeat split; cbn; lia.
      * cbn [ds_set Properties_Groups.ex_set set_count set_len]. split; [lia|]. right. split; [lia|]. split; [lia|]. reflexivity.
    + unfold zlen. cbn. lia.
Qed.
