(** * Properties C17-C24, C52: grouping.

    The vocabulary is in GroupSpec.v: [dataset] (a dataset of the session and its values), [grouped]
    (groupDataset returned), [is_sub], [sub_values] (subsequences), [groups_are] (the members of the
    groups of one length, as their methods show them), [dist_is] (pairwiseDistance without dropout). *)
From Coq Require Import ZArith Bool Reals Lra Lia SpecFloat String Sorted Permutation List.
From Verif Require Import Outcome Num RX Lemire Distance TimeSeries Text Dataset Groups Api Laws F64Base RXLaws F64Laws Spec SafeDist Numeric Metric.
From Verif Require Import TsProofs GroupSpec GroupProofs GlobalGroup GroupFacts.
Import ListNotations.
Open Scope Z_scope.

(** ** Sessions used in the examples: three series of length 3. *)
Definition ex_ints : list Z := [0; 1; 2;  0; 1; 3;  5; 5; 5].
Definition ex_set : tset := mkSet (Some 0%nat) 3 3 "ex" false.
Definition ex_st (N : NumOps) (f : Z -> num N) : st N :=
  mkSt N [Some (map f ex_ints)] [Some (mkDS N ex_set None None)] 1 (nzero N) false (fun _ => None).
Lemma ex_dataset N f : dataset N (ex_st N f) 0 (mkDS N ex_set None None) (map f ex_ints).
Proof. split; [reflexivity|]. exists 0%nat. repeat split; cbn; lia. Qed.
Lemma ex_grouped N (dat pos : num N -> Prop) f thr : lt N (half_of N thr) (ninf N) ->
  exists σ' n gs, grouped N (ex_st N f) 0 thr σ' n gs.
Proof.
  intros H. destruct (group_returns N dat pos (ex_st N f) 0 thr _ _ (fun _ => false) (ex_dataset N f)) as (σ' & n & gs & _ & G); eauto.
  - cbn. lia.
  - cbn. lia.
  - intros l Hl. unfold due. cbn. destruct (Z.eqb_spec l 2); [|discriminate]. intros _ _. subst l. cbn. lia.
Qed.
Lemma ex_fin : Forall fin64 (map f64_ofZ ex_ints).
Proof. now apply fin64_Zs. Qed.
Definition ex_Fin (z : Z) : num RX := Fin (IZR z).
Lemma ex_dat : Forall dat_rx (map ex_Fin ex_ints).
Proof. apply Forall_forall. intros x H. apply in_map_iff in H as (z & <- & _). now exists (IZR z). Qed.

(** ** C17: any doubles, NaN and infinities included. *)
Theorem C17_groups_partition : forall (σ : st F64) i thr σ' n gs d data,
  grouped F64 σ i thr σ' n gs -> dataset F64 σ i d data -> set_len (ds_set F64 d) <= 2 ^ 30 ->
  lt F64 (ndiv F64 thr (f64_ofZ 2)) (ninf F64) ->
  forall L, 2 <= L <= set_len (ds_set F64 d) ->
  exists gm, groups_are F64 (st_heap F64 σ') (ds_set F64 d) data gs L gm /\ NoDup (concat gm) /\
    forall c, In c (concat gm) <-> is_sub (set_count (ds_set F64 d)) (set_len (ds_set F64 d)) L c.
Proof.
  intros σ i thr σ' n gs d data G D Hlen Hinf L HL.
  destruct (grouped_rules F64 fin64 pos64 _ _ _ _ _ _ _ _ G D Hlen Hinf L HL) as (gm & A & B & C & _). eauto.
Qed.
Example C17_case : exists σ' n gs, grouped F64 (ex_st F64 f64_ofZ) 0 (f64_ofZ 1) σ' n gs /\
  dataset F64 (ex_st F64 f64_ofZ) 0 (mkDS F64 ex_set None None) (map f64_ofZ ex_ints) /\
  lt F64 (ndiv F64 (f64_ofZ 1) (f64_ofZ 2)) (ninf F64) /\ n = 7.
Proof.
  assert (H : lt F64 (ndiv F64 (f64_ofZ 1) (f64_ofZ 2)) (ninf F64)) by reflexivity.
  destruct (ex_grouped F64 fin64 pos64 f64_ofZ (f64_ofZ 1) H) as (σ' & n & gs & G). exists σ', n, gs. split; auto.
  split; [apply ex_dataset|]. split; auto. destruct (api_group_inv F64 _ _ _ _ _ _ _ _ G (ex_dataset F64 f64_ofZ)) as (_ & _ & clock & E).
  apply (global_group_clock F64) in E. 
  assert (X : match global_group F64 (st_heap F64 (ex_st F64 f64_ofZ)) (nzero F64) ex_set "euclidean" (f64_ofZ 1) (fun _ => false) with
     Ok (_, n) => n =? 7 | _ => false end = true) by (vm_compute; reflexivity).
  cbn [ds_set st_ratio ex_st] in E. cbn [st_heap ex_st] in X. change (st_heap F64 (ex_st F64 f64_ofZ)) with [Some (map f64_ofZ ex_ints)] in E.
  change (num F64) with spec_float in *. rewrite E in X. now apply Z.eqb_eq.
Qed.

(** ** C18 *)
Theorem C18_members_within_half_threshold : forall (σ : st F64) i thr σ' n gs d data,
  grouped F64 σ i thr σ' n gs -> dataset F64 σ i d data -> set_len (ds_set F64 d) <= 2 ^ 30 ->
  Forall fin64 data -> fin64 thr -> le F64 (nzero F64) thr ->
  forall L gm ms c, 2 <= L <= set_len (ds_set F64 d) ->
  groups_are F64 (st_heap F64 σ') (ds_set F64 d) data gs L gm -> In ms gm -> In c ms ->
  exists x, dist_is F64 (sub_values F64 data (set_len (ds_set F64 d)) L (hd (0, 0) ms))
                        (sub_values F64 data (set_len (ds_set F64 d)) L c) x /\
    le F64 x (ndiv F64 thr (f64_ofZ 2)).
Proof.
  intros σ i thr σ' n gs d data G D Hlen Hdat Hf H0 L gm ms c HL Hgm Hms Hc.
  destruct (grouped_rules_of F64 fin64 pos64 _ _ _ _ _ _ _ _ G D Hlen (half64_lt_inf _ Hf) L gm HL Hgm) as (_ & Hne & Hv & R).
  destruct D as (_ & b & _ & _ & _ & Hs).
  assert (LW : lawful F64 fin64 pos64 data) by (split; auto; apply f64_cost).
  assert (Vc : valid (ds_set F64 d) L c) by (apply Hv, in_concat; eauto).
  assert (Vh : valid (ds_set F64 d) L (hd (0, 0) ms)) by (apply Hv, in_concat; exists ms; split; auto; apply hd_in; auto).
  exists (V F64 (ds_set F64 d) data L (hd (0, 0) ms) c). split.
  - apply (V_pairwise F64 fin64 pos64); auto; lia.
  - apply in_zget in Hms as (k & _ & Hk). destruct (r_radius _ _ _ _ _ _ _ _ R LW k ms c Hk Hc) as [->|H]; auto.
    rewrite (V_self F64 fin64 pos64) by (auto; lia). now apply half64_pos.
Qed.
Example C18_case : Forall fin64 (map f64_ofZ ex_ints) /\ fin64 (f64_ofZ 1) /\ le F64 (nzero F64) (f64_ofZ 1) /\
  exists σ' n gs, grouped F64 (ex_st F64 f64_ofZ) 0 (f64_ofZ 1) σ' n gs.
Proof.
  split; [apply ex_fin|]. split; [split; [reflexivity|exact I]|]. split; [reflexivity|]. now apply (ex_grouped F64 fin64 pos64).
Qed.

(** ** C19, exact arithmetic: [thr] is a real number. *)
Section Exact.
Context (σ : st RX) (i : Z) (t : R) (σ' : st RX) (n : Z) (gs : gspace RX) (d : dset RX) (data : list (num RX)).
Local Notation len := (set_len (ds_set RX d)).
Definition exact_grouped : Prop :=
  grouped RX σ i (Fin t) σ' n gs /\ dataset RX σ i d data /\ len <= 2 ^ 30 /\ Forall dat_rx data.
Definition exact_groups (L : Z) (gm : list (list coord)) : Prop :=
  2 <= L <= len /\ groups_are RX (st_heap RX σ') (ds_set RX d) data gs L gm.

Lemma exact_rules : exact_grouped -> forall L gm, exact_groups L gm ->
  NoDup (concat gm) /\ (forall ms, In ms gm -> ms <> []) /\
  (forall c, In c (concat gm) <-> valid (ds_set RX d) L c) /\
  rules RX dat_rx pos_rx (ds_set RX d) data L (half_of RX (Fin t)) gm /\
  lawful RX dat_rx pos_rx data /\ set_count (ds_set RX d) * len <= zlen data /\ len <= 2 ^ 30.
Proof.
  intros (G & D & Hlen & Hdat) L gm (HL & Hgm).
  destruct (grouped_rules_of RX dat_rx pos_rx _ _ _ _ _ _ _ _ G D Hlen (half_rx_inf t) L gm HL Hgm) as (A & B & C & R).
  destruct D as (_ & b & _ & _ & _ & Hs).
  do 4 (split; [assumption|]). split; [split; [apply rx_cost|auto]|auto].
Qed.
Lemma exact_members : exact_grouped -> forall L gm, exact_groups L gm -> forall ms c, In ms gm -> In c ms ->
  valid (ds_set RX d) L c /\ valid (ds_set RX d) L (hd (0, 0) ms).
Proof.
  intros HG L gm Hgm ms c Hms Hc. destruct (exact_rules HG L gm Hgm) as (_ & Hne & Hv & _).
  split; apply Hv, in_concat; exists ms; split; auto. apply hd_in; auto.
Qed.
Local Notation W := (V RX (ds_set RX d) data).
Lemma exact_dist : exact_grouped -> forall L gm, exact_groups L gm -> forall c c' c'',
  valid (ds_set RX d) L c -> valid (ds_set RX d) L c' -> valid (ds_set RX d) L c'' ->
  exists x y z : R, W L c c' = Fin x /\ W L c' c'' = Fin y /\ W L c c'' = Fin z /\ W L c' c = Fin x /\
    dist_is RX (sub_values RX data len L c) (sub_values RX data len L c') (Fin x) /\
    dist_is RX (sub_values RX data len L c') (sub_values RX data len L c'') (Fin y) /\
    dist_is RX (sub_values RX data len L c) (sub_values RX data len L c'') (Fin z) /\
    (0 <= x)%R /\ (z <= x + y)%R /\ (x = 0%R <-> sub_values RX data len L c = sub_values RX data len L c').
Proof.
  intros HG L gm Hgm c c' c'' V1 V2 V3. destruct (exact_rules HG L gm Hgm) as (_ & _ & _ & _ & LW & Hs & Hl).
  destruct Hgm as (HL & _).
  assert (K : forall x, valid (ds_set RX d) L x -> zlen (sub_values RX data len L x) = L).
  { intros x Hx. apply (vals_len RX (ds_set RX d) data); auto; lia. }
  assert (F : forall x, Forall dat_rx (sub_values RX data len L x)) by (intros x; apply (vals_dat RX dat_rx pos_rx); auto).
  destruct (rx_metric (sub_values RX data len L c) (sub_values RX data len L c') (sub_values RX data len L c''))
    as (x & y & z & D1 & D2 & D3 & P & T & D4 & Z0); auto; try (rewrite ?K by auto; lia).
  pose proof (V_pairwise RX dat_rx pos_rx (ds_set RX d) data Hl Hs L ltac:(lia)) as VP.
  assert (Q : forall u v w, valid (ds_set RX d) L u -> valid (ds_set RX d) L v ->
     dist_is RX (sub_values RX data len L u) (sub_values RX data len L v) w -> W L u v = w).
  { intros u v w Hu Hv Hw. pose proof (VP u v LW Hu Hv) as E. unfold dist_is in Hw. unfold sub_values in Hw. unfold vals in E. rewrite E in Hw.
    now injection Hw. }
  exists x, y, z. do 4 (split; [apply Q; auto|]). auto 10.
Qed.

Theorem C19_diameter_exact : exact_grouped -> (0 <= t)%R -> forall L gm, exact_groups L gm ->
  forall ms c c', In ms gm -> In c ms -> In c' ms ->
  exists x : R, dist_is RX (sub_values RX data len L c) (sub_values RX data len L c') (Fin x) /\ (x <= t)%R.
Proof.
  intros HG Ht L gm Hgm ms c c' Hms Hc Hc'. destruct (exact_rules HG L gm Hgm) as (_ & _ & _ & R & LW & _).
  destruct (exact_members HG L gm Hgm ms c Hms Hc) as (Vc & Vh). destruct (exact_members HG L gm Hgm ms c' Hms Hc') as (Vc' & _).
  destruct (exact_dist HG L gm Hgm c (hd (0, 0) ms) c' Vc Vh Vc') as (x & y & z & E1 & E2 & E3 & E4 & _ & _ & D3 & _ & T & _).
  exists z. split; auto. apply in_zget in Hms as (k & _ & Hk).
  assert (B : forall u v, In u ms -> W L (hd (0, 0) ms) u = Fin v -> (v <= t / 2)%R).
  { intros u v Hu Ev. destruct (r_radius _ _ _ _ _ _ _ _ R LW k ms u Hk Hu) as [->|H].
    - destruct Hgm as (HL & _). destruct HG as (_ & _ & Hlen & _).
      rewrite (V_self RX dat_rx pos_rx) in Ev by (auto; lia). injection Ev as <-. lra.
    - rewrite Ev, half_rx in H. now apply leb_rx. }
  pose proof (B c x Hc E4). pose proof (B c' y Hc' E2). lra.
Qed.

(** ** C20 *)
Theorem C20_representatives_separated_exact : exact_grouped -> forall L gm, exact_groups L gm ->
  forall j k msj msk, j < k -> zget gm j = Ok msj -> zget gm k = Ok msk ->
  exists x : R, dist_is RX (sub_values RX data len L (hd (0, 0) msj)) (sub_values RX data len L (hd (0, 0) msk)) (Fin x) /\
    (t / 2 < x)%R.
Proof.
  intros HG L gm Hgm j k msj msk Hjk Hj Hk. destruct (exact_rules HG L gm Hgm) as (_ & Hne & _ & R & LW & _).
  pose proof (zget_in _ _ _ Hj) as Ij. pose proof (zget_in _ _ _ Hk) as Ik.
  destruct (exact_members HG L gm Hgm msj _ Ij (hd_in (0, 0) _ (Hne _ Ij))) as (Vj & _).
  destruct (exact_members HG L gm Hgm msk _ Ik (hd_in (0, 0) _ (Hne _ Ik))) as (Vk & _).
  destruct (exact_dist HG L gm Hgm _ _ _ Vj Vk Vk) as (x & y & z & E1 & _ & _ & _ & D1 & _).
  exists x. split; auto.
  destruct (zget_inv _ _ _ Hj) as (Rj & _). destruct (zget_inv _ _ _ Hk) as (Rk & _).
  pose proof (r_apart _ _ _ _ _ _ _ _ R LW rx_exact (half_rx_ord t) k j ltac:(lia) ltac:(lia)) as H.
  unfold rep in H. rewrite Hj, Hk, E1, half_rx in H. now apply ltb_rx.
Qed.

(** ** C21 *)
Theorem C21_joins_nearest_exact : exact_grouped -> forall L gm, exact_groups L gm ->
  forall k ms c, zget gm k = Ok ms -> In c ms -> c <> hd (0, 0) ms ->
  exists x : R, dist_is RX (sub_values RX data len L (hd (0, 0) ms)) (sub_values RX data len L c) (Fin x) /\
    (x <= t / 2)%R /\
    forall j msj, zget gm j = Ok msj -> visited_before (hd (0, 0) msj) c ->
      exists y : R, dist_is RX (sub_values RX data len L (hd (0, 0) msj)) (sub_values RX data len L c) (Fin y) /\
        (x <= y)%R /\ (j < k -> (x < y)%R).
Proof.
  intros HG L gm Hgm k ms c Hk Hc Hnc. destruct (exact_rules HG L gm Hgm) as (_ & Hne & _ & R & LW & _).
  destruct (exact_members HG L gm Hgm ms c (zget_in _ _ _ Hk) Hc) as (Vc & Vh).
  destruct (exact_dist HG L gm Hgm _ _ _ Vh Vc Vc) as (x & y & z & E1 & _ & _ & _ & D1 & _).
  exists x. split; auto. split.
  - destruct (r_radius _ _ _ _ _ _ _ _ R LW k ms c Hk Hc) as [->|H]; [congruence|].
    rewrite E1, half_rx in H. now apply leb_rx.
  - intros j msj Hj Hb. pose proof (zget_in _ _ _ Hj) as Ij.
    destruct (exact_members HG L gm Hgm msj _ Ij (hd_in (0, 0) _ (Hne _ Ij))) as (Vj & _).
    destruct (exact_dist HG L gm Hgm _ _ _ Vj Vc Vc) as (x' & y' & z' & E1' & _ & _ & _ & D1' & _).
    exists x'. split; auto. destruct (zget_inv _ _ _ Hj) as (Rj & _).
    assert (Hb' : before (rep gm j) c) by (unfold rep; now rewrite Hj).
    destruct (r_nearest _ _ _ _ _ _ _ _ R LW rx_exact k ms c j Hk Hc Hnc Rj Hb') as (H1 & H2).
    unfold rep in H1, H2. rewrite Hj, Hk, E1, E1' in *. split; [now apply leb_rx|]. intros Hjk. now apply ltb_rx, H2.
Qed.
(** A subsequence founds a group only if all groups existing then are farther than thr/2; these are
    the groups with a lower index. *)
Theorem C21_founders_exact : exact_grouped -> forall L gm, exact_groups L gm ->
  forall j k msj msk, zget gm j = Ok msj -> zget gm k = Ok msk ->
  (visited_before (hd (0, 0) msj) (hd (0, 0) msk) <-> j < k) /\
  (visited_before (hd (0, 0) msj) (hd (0, 0) msk) ->
   exists x : R, dist_is RX (sub_values RX data len L (hd (0, 0) msj)) (sub_values RX data len L (hd (0, 0) msk)) (Fin x) /\
    (t / 2 < x)%R).
Proof.
  intros HG L gm Hgm j k msj msk Hj Hk. destruct (exact_rules HG L gm Hgm) as (_ & _ & _ & R & _).
  destruct (zget_inv _ _ _ Hj) as (Rj & _). destruct (zget_inv _ _ _ Hk) as (Rk & _).
  assert (Q : visited_before (hd (0, 0) msj) (hd (0, 0) msk) -> j < k).
  { intros Hb. destruct (Z.lt_trichotomy j k) as [|[->|Hkj]]; auto.
    - rewrite Hj in Hk. injection Hk as ->. now apply before_irrefl in Hb.
    - pose proof (r_heads _ _ _ _ _ _ _ _ R k j ltac:(lia) ltac:(lia)) as Hb'. unfold rep in Hb'. rewrite Hj, Hk in Hb'.
      exfalso. apply (before_irrefl (hd (0, 0) msj)). eapply before_trans; [exact Hb|exact Hb']. }
  split; [split; auto|].
  - intros Hjk. pose proof (r_heads _ _ _ _ _ _ _ _ R j k ltac:(lia) ltac:(lia)) as Hb. unfold rep in Hb. now rewrite Hj, Hk in Hb.
  - intros Hb. eapply C20_representatives_separated_exact; eauto.
Qed.

(** ** C23, threshold 0 *)
Theorem C23_zero_threshold_exact : exact_grouped -> t = 0%R -> forall L gm, exact_groups L gm ->
  forall c c', is_sub (set_count (ds_set RX d)) len L c -> is_sub (set_count (ds_set RX d)) len L c' ->
  ((exists ms, In ms gm /\ In c ms /\ In c' ms) <-> sub_values RX data len L c = sub_values RX data len L c').
Proof.
  intros HG Ht L gm Hgm c c' Hc Hc'. pose proof (exact_rules HG L gm Hgm) as (_ & Hne & Hv & R & LW & _).
  assert (SM : forall ms u, In ms gm -> In u ms -> sub_values RX data len L (hd (0, 0) ms) = sub_values RX data len L u).
  { intros ms u Hms Hu. destruct (exact_members HG L gm Hgm ms u Hms Hu) as (Vu & Vh).
    destruct (exact_dist HG L gm Hgm _ _ _ Vh Vu Vu) as (x & y & z & E1 & _ & _ & _ & _ & _ & _ & P & _ & Z0).
    apply Z0. apply in_zget in Hms as (k & _ & Hk). destruct (r_radius _ _ _ _ _ _ _ _ R LW k ms u Hk Hu) as [E|H].
    - subst u. apply Z0. reflexivity.
    - rewrite E1, half_rx in H. apply leb_rx in H. lra. }
  split.
  - intros (ms & Hms & Hu & Hu'). rewrite <- (SM ms c), <- (SM ms c'); auto.
  - intros E. apply Hv in Hc as Ic. apply Hv in Hc' as Ic'. apply in_concat in Ic as (ms & Hms & Hu). apply in_concat in Ic' as (ms' & Hms' & Hu').
    pose proof (in_zget _ _ Hms) as (k & Rk & Hk). pose proof (in_zget _ _ Hms') as (k' & Rk' & Hk').
    assert (Same : sub_values RX data len L (hd (0, 0) ms) = sub_values RX data len L (hd (0, 0) ms')).
    { rewrite (SM ms c), (SM ms' c'); auto. }
    destruct (Z.lt_trichotomy k k') as [Hlt|[->|Hlt]].
    + destruct (C20_representatives_separated_exact HG L gm Hgm _ _ _ _ Hlt Hk Hk') as (x & Dx & Hx).
      destruct (exact_members HG L gm Hgm ms c Hms Hu) as (_ & V1). destruct (exact_members HG L gm Hgm ms' c' Hms' Hu') as (_ & V2).
      destruct (exact_dist HG L gm Hgm _ _ _ V1 V2 V2) as (x' & y' & z' & _ & _ & _ & _ & D' & _ & _ & _ & _ & Z0).
      unfold dist_is in *. rewrite Dx in D'. injection D' as ->. apply Z0 in Same. lra.
    + rewrite Hk in Hk'. injection Hk' as ->. exists ms'. auto.
    + destruct (C20_representatives_separated_exact HG L gm Hgm _ _ _ _ Hlt Hk' Hk) as (x & Dx & Hx).
      destruct (exact_members HG L gm Hgm ms c Hms Hu) as (_ & V1). destruct (exact_members HG L gm Hgm ms' c' Hms' Hu') as (_ & V2).
      destruct (exact_dist HG L gm Hgm _ _ _ V2 V1 V1) as (x' & y' & z' & _ & _ & _ & _ & D' & _ & _ & _ & _ & Z0).
      unfold dist_is in *. rewrite Dx in D'. injection D' as ->. symmetry in Same. apply Z0 in Same. lra.
Qed.
End Exact.
Example C19_case : forall t : R, exists σ' n gs,
  exact_grouped (ex_st RX ex_Fin) 0 t σ' n gs (mkDS RX ex_set None None) (map ex_Fin ex_ints) /\
  forall L, 2 <= L <= 3 -> exists gm, exact_groups σ' gs (mkDS RX ex_set None None) (map ex_Fin ex_ints) L gm.
Proof.
  intros t. destruct (ex_grouped RX dat_rx pos_rx ex_Fin (Fin t) (half_rx_inf t)) as (σ' & n & gs & G). exists σ', n, gs.
  split.
  - split; auto. split; [apply ex_dataset|]. split; [cbn; lia|apply ex_dat].
  - intros L HL. destruct (grouped_rules RX dat_rx pos_rx _ _ _ _ _ _ _ _ G (ex_dataset RX ex_Fin) ltac:(cbn; lia) (half_rx_inf t) L HL)
      as (gm & A & _). exists gm. split; auto.
Qed.

(** Representatives are the first members in the order of insertion, which is the order of visits. *)
Theorem C20_representative_is_first : forall (σ : st F64) i thr σ' n gs d data,
  grouped F64 σ i thr σ' n gs -> dataset F64 σ i d data -> set_len (ds_set F64 d) <= 2 ^ 30 ->
  lt F64 (ndiv F64 thr (f64_ofZ 2)) (ninf F64) ->
  forall L gm, 2 <= L <= set_len (ds_set F64 d) ->
  groups_are F64 (st_heap F64 σ') (ds_set F64 d) data gs L gm ->
  forall ms, In ms gm -> StronglySorted visited_before ms /\
    forall c, In c ms -> c = hd (0, 0) ms \/ visited_before (hd (0, 0) ms) c.
Proof.
  intros σ i thr σ' n gs d data G D Hlen Hinf L gm HL Hgm ms Hms.
  destruct (grouped_rules_of F64 fin64 pos64 _ _ _ _ _ _ _ _ G D Hlen Hinf L gm HL Hgm) as (_ & Hne & Hv & R).
  apply in_zget in Hms as (k & _ & Hk). pose proof (r_sorted _ _ _ _ _ _ _ _ R k ms Hk) as S. split; auto.
  intros c Hc. destruct ms as [|x ms]; [contradiction|]. cbn. inversion S as [|? ? _ F]; subst. rewrite Forall_forall in F.
  destruct Hc as [<-|Hc]; auto. right. now apply F.
Qed.

(** ** C22 *)
Lemma map_seq_nth {A B} (f : A -> B) d l : map (fun k => f (nth k l d)) (seq 0 (List.length l)) = map f l.
Proof. induction l as [|x l IH]; auto. cbn. f_equal. now rewrite <- seq_shift, map_map. Qed.
Theorem C22_returns_number_of_groups : forall (σ : st F64) i thr σ' n gs d data,
  grouped F64 σ i thr σ' n gs -> dataset F64 σ i d data -> set_len (ds_set F64 d) <= 2 ^ 30 ->
  lt F64 (ndiv F64 thr (f64_ofZ 2)) (ninf F64) ->
  exists count : Z -> Z,
    (forall L, 2 <= L <= set_len (ds_set F64 d) ->
       exists gm, groups_are F64 (st_heap F64 σ') (ds_set F64 d) data gs L gm /\ count L = zlen gm) /\
    n = zsum (map (fun k => count (Z.of_nat k)) (seq 2 (Z.to_nat (set_len (ds_set F64 d) - 1)))).
Proof.
  intros σ i thr σ' n gs d data G D Hlen Hinf.
  destruct (grouped_spec F64 fin64 pos64 _ _ _ _ _ _ _ _ G D Hlen Hinf) as (b & B1 & B2 & B3 & B4 & B5 & B6 & B7 & B8).
  exists (fun L => ngroups F64 (nth (Z.to_nat L) (gs_spaces F64 gs) None)). split.
  - intros L HL. destruct (grouped_rules F64 fin64 pos64 _ _ _ _ _ _ _ _ G D Hlen Hinf L HL) as (gm & A & _).
    exists gm. split; auto. destruct A as (ls & E & En & _). rewrite (zget_nth _ _ None) in E by lia. injection E as ->. exact En.
  - assert (X : forall l : list (option (lspace F64)),
      (forall L, 0 <= L < 2 -> L < zlen l -> zget l L = Ok None) ->
      zsum (map (ngroups F64) l) = zsum (map (fun k => ngroups F64 (nth (Z.to_nat (Z.of_nat k)) l None)) (seq 2 (List.length l - 2)))).
    { intros l Hl. destruct l as [|x [|y l]]; [reflexivity| |].
      - pose proof (Hl 0 ltac:(lia) ltac:(cbn; lia)) as E. injection E as ->. reflexivity.
      - pose proof (Hl 0 ltac:(lia) ltac:(unfold zlen; cbn [List.length]; lia)) as E. injection E as ->.
        pose proof (Hl 1 ltac:(lia) ltac:(unfold zlen; cbn [List.length]; lia)) as E. injection E as ->.
        cbn [map zsum fold_right ngroups List.length]. rewrite !Z.add_0_l. change (fold_right Z.add 0) with zsum.
        replace (S (S (List.length l)) - 2)%nat with (List.length l) by lia. clear.
        rewrite <- (seq_shift _ 1), <- seq_shift, !map_map. f_equal.
        rewrite <- (map_seq_nth (ngroups F64) None l). apply map_ext. intros k. rewrite Nat2Z.id. reflexivity. }
    rewrite B6, X.
    + do 3 f_equal. unfold zlen in B5. lia.
    + intros L HL HL'. apply B7; auto. lia.
Qed.
(** Grouping depends only on the data and the threshold, not on earlier groups or on the clock. *)
Theorem C22_regrouping : forall (σ : st F64) i thr0 thr σ1 n1 gs1 σ2 n2 gs2 σ3 n3 gs3 d data,
  dataset F64 σ i d data ->
  grouped F64 σ i thr0 σ1 n1 gs1 -> grouped F64 σ1 i thr σ2 n2 gs2 ->
  grouped F64 σ i thr σ3 n3 gs3 -> gs2 = gs3 /\ n2 = n3.
Proof.
  intros σ i thr0 thr σ1 n1 gs1 σ2 n2 gs2 σ3 n3 gs3 d data D G1 G2 G3.
  destruct (api_group_inv F64 _ _ _ _ _ _ _ _ G1 D) as (Hh & Hc & _).
  assert (D1 : dataset F64 σ1 i (mkDS F64 (ds_set F64 d) (Some gs1) (Some thr0)) data).
  { destruct D as (D1 & D2). split; auto. cbn [ds_set]. now rewrite Hh. }
  destruct (api_group_inv F64 _ _ _ _ _ _ _ _ G2 D1) as (_ & _ & c2 & E2).
  destruct (api_group_inv F64 _ _ _ _ _ _ _ _ G3 D) as (_ & _ & c3 & E3).
  apply (global_group_clock F64) in E2, E3. cbn [ds_set] in E2. rewrite Hh in E2.
  assert (Hr : st_ratio F64 σ1 = st_ratio F64 σ).
  { destruct G1 as (cl & d1 & E & _). unfold api_group in E. destruct (checkDatasetIndex F64 σ i); try discriminate. cbn [lift] in E.
    destruct (negb _); [discriminate|]. destruct (global_group _ _ _ _ _ _ _) as [(?, ?)| | |]; try discriminate. injection E as <- _.
    now destruct (2 <=? _). }
  rewrite Hr in E2. rewrite E2 in E3. injection E3 as -> ->. auto.
Qed.
Theorem C22_grouping_changes_only_groups : forall (σ : st F64) i thr σ' n gs d data,
  dataset F64 σ i d data -> grouped F64 σ i thr σ' n gs ->
  st_heap F64 σ' = st_heap F64 σ /\ st_files F64 σ' = st_files F64 σ /\ st_count F64 σ' = st_count F64 σ /\
  dataset F64 σ' i (mkDS F64 (ds_set F64 d) (Some gs) (Some thr)) data /\
  forall j, j <> i -> checkDatasetIndex F64 σ' j = checkDatasetIndex F64 σ j.
Proof.
  intros σ i thr σ' n gs d data D G. destruct (api_group_inv F64 _ _ _ _ _ _ _ _ G D) as (Hh & Hc & _).
  destruct D as (D1 & D2). destruct (check_inv F64 _ _ _ D1) as (Hr & _).
  destruct G as (cl & d1 & E & _). unfold api_group in E. rewrite D1 in E. cbn [lift] in E.
  destruct (negb _); [discriminate|]. destruct (global_group _ _ _ _ _ _ _) as [(gs', n')| | |]; try discriminate. injection E as E _.
  split; auto. split; [subst σ'; now destruct (2 <=? _)|]. split; [subst σ'; now destruct (2 <=? _)|].
  split; [split; auto; cbn [ds_set]; now rewrite Hh|].
  intros j Hj. pose proof (check_put_other F64 σ i j (mkDS F64 (ds_set F64 d) (Some gs') (Some thr)) Hr (not_eq_sym Hj)) as X.
  subst σ'. destruct (2 <=? _); exact X.
Qed.

(** ** C23, negative thresholds *)
Theorem C23_negative_threshold : forall (σ : st F64) i thr σ' n gs d data,
  grouped F64 σ i thr σ' n gs -> dataset F64 σ i d data -> set_len (ds_set F64 d) <= 2 ^ 30 ->
  Forall fin64 data -> ok64 thr -> lt F64 (ndiv F64 thr (f64_ofZ 2)) (nzero F64) ->
  forall L gm, 2 <= L <= set_len (ds_set F64 d) ->
  groups_are F64 (st_heap F64 σ') (ds_set F64 d) data gs L gm ->
  forall ms, In ms gm -> exists c, ms = [c].
Proof.
  intros σ i thr σ' n gs d data G D Hlen Hdat Hthr Hneg L gm HL Hgm ms Hms.
  assert (Hok : ok64 (half_of F64 thr)).
  { assert (C : fin64 thr \/ exists sg, thr = S754_infinity sg).
    { destruct Hthr as (A & B). destruct thr as [sg|sg| |sg m e]; eauto; try congruence; left; split; auto. }
    destruct C as [C|(sg & ->)]; [now apply half64_val|]. destruct sg; split; try reflexivity; discriminate. }
  assert (PO : forall x, pos64 x -> lt F64 (half_of F64 thr) x).
  { intros x Hx. apply lt64; auto. { now apply pos_ok. } apply lt64 in Hneg; auto; [|apply pos_ok, pos_zero64].
    pose proof (val_pos x Hx). change (val (nzero F64)) with 0%R in Hneg. unfold half_of. cbn [nofZ F64] in *. lra. }
  destruct (grouped_rules_of F64 fin64 pos64 _ _ _ _ _ _ _ _ G D Hlen (PO _ pos_inf64) L gm HL Hgm) as (_ & Hne & Hv & R).
  assert (LW : lawful F64 fin64 pos64 data) by (split; auto; apply f64_cost).
  pose proof (Hne ms Hms) as Hn. apply in_zget in Hms as (k & _ & Hk). pose proof (r_sorted _ _ _ _ _ _ _ _ R k ms Hk) as S.
  destruct ms as [|x [|y ms]]; [congruence|eauto|]. exfalso.
  destruct (r_radius _ _ _ _ _ _ _ _ R LW k _ y Hk ltac:(right; now left)) as [E|H].
  - cbn in E. subst y. inversion S as [|? ? _ F]; subst. inversion F as [|? ? Hb _]; subst. now apply before_irrefl in Hb.
  - eapply lt_not_le; [|exact H]. apply PO. apply (V_pos F64 fin64 pos64); auto. lia.
Qed.
Example C23_case : ok64 (f64_ofZ (-1)) /\ lt F64 (ndiv F64 (f64_ofZ (-1)) (f64_ofZ 2)) (nzero F64) /\
  exists σ' n gs, grouped F64 (ex_st F64 f64_ofZ) 0 (f64_ofZ (-1)) σ' n gs.
Proof. split; [split; [reflexivity|discriminate]|]. split; [reflexivity|]. now apply (ex_grouped F64 fin64 pos64). Qed.
(** The negative double nearest to 0 is not covered: its half rounds to -0, which is not below 0. *)
Example C23_tiny_case : lt F64 (S754_finite true 1 (-1074)) (nzero F64) /\
  ndiv F64 (S754_finite true 1 (-1074)) (f64_ofZ 2) = S754_zero true.
Proof. split; vm_compute; reflexivity. Qed.

(** ** C24 *)
Definition far_data : list spec_float :=
  let b := SFldexp prec64 emax64 (f64_ofZ 1) 600 in
  [f64_ofZ 0; f64_ofZ 0; b; b; f64_ofZ 0; f64_ofZ 0; f64_ofZ 0; f64_ofZ 0; f64_ofZ 0; f64_ofZ 0].
Definition far_st : st F64 :=
  mkSt F64 [Some far_data] [Some (mkDS F64 (mkSet (Some 0%nat) 2 5 "far" false) None None)] 1 (nzero F64) false (fun _ => None).
Definition is_bad {N} (r : res N) (u : ub) : bool :=
  match r, u with
  | Bad _ DivZero, DivZero | Bad _ Uninit, Uninit | Bad _ OutOfBounds, OutOfBounds | Bad _ NullDeref, NullDeref
  | Bad _ UseAfterFree, UseAfterFree => true
  | _, _ => false
  end.
Lemma is_bad_ok {N} (r : res N) u : is_bad r u = true -> r = Bad N u.
Proof. destruct r as [| |v|]; try discriminate. destruct v, u; try discriminate; reflexivity. Qed.
Theorem C24_infinite_threshold_ub_witness : exists (σ : st F64) i d data clock,
  dataset F64 σ i d data /\ Forall fin64 data /\
  api_group F64 σ i (ninf F64) clock = Bad F64 Uninit /\
  api_group F64 σ i S754_nan clock = Bad F64 Uninit.
Proof.
  exists far_st, 0, (mkDS F64 (mkSet (Some 0%nat) 2 5 "far" false) None None), far_data, (fun _ => false).
  split; [split; [reflexivity|]; exists 0%nat; repeat split; cbn; lia|].
  split; [repeat constructor|]. split; apply is_bad_ok; vm_compute; reflexivity.
Qed.
Theorem C24_finite_threshold_no_ub : forall (σ : st F64) i thr d data clock,
  dataset F64 σ i d data -> set_len (ds_set F64 d) <= 2 ^ 30 ->
  lt F64 (ndiv F64 thr (f64_ofZ 2)) (ninf F64) -> api_group F64 σ i thr clock <> Bad F64 Uninit.
Proof.
  intros σ i thr d data clock D Hlen Hinf E.
  destruct (Z.ltb_spec (set_len (ds_set F64 d) + 1) 0) as [Hneg|H0].
  { unfold api_group in E. destruct D as (D1 & b & D2 & _). rewrite D1 in E. cbn [lift] in E. unfold isLoaded in E. rewrite D2 in E. cbn [negb] in E.
    unfold global_group in E. replace (getDistance "euclidean") with (Ok DPairwise) in E by reflexivity. cbn [bind] in E.
    unfold resize_null in E. destruct (Z.ltb_spec (set_len (ds_set F64 d) + 1) 0); [|lia]. cbn [bind] in E. discriminate. }
  destruct (log_cases F64 σ d clock) as [C|C].
  - rewrite (group_crashes F64 fin64 pos64 σ i thr d data clock D Hlen Hinf C) in E. discriminate.
  - destruct (group_returns F64 fin64 pos64 σ i thr d data clock D Hlen H0 Hinf C) as (? & ? & ? & E' & _). congruence.
Qed.

(** ** C52: progress messages.  [due]: the clock asks for a message when length [l] is grouped, or this is
    the first grouping of the process and [l] is 2. *)
Theorem C52_grouping_returns : forall (σ : st F64) i thr d data clock,
  dataset F64 σ i d data -> 0 <= set_len (ds_set F64 d) <= 2 ^ 30 ->
  lt F64 (ndiv F64 thr (f64_ofZ 2)) (ninf F64) ->
  (forall l, 2 <= l <= set_len (ds_set F64 d) -> due F64 σ clock l = true -> 1 <= set_count (ds_set F64 d) ->
     5 <= (set_len (ds_set F64 d) - l + 1) * set_count (ds_set F64 d)) ->
  exists σ' n gs, api_group F64 σ i thr clock = Done F64 σ' (VInt F64 n) /\ grouped F64 σ i thr σ' n gs.
Proof.
  intros σ i thr d data clock D Hlen Hinf Hlog. eapply (group_returns F64 fin64 pos64); eauto; lia.
Qed.
Theorem C52_grouping_divides_by_zero : forall (σ : st F64) i thr d data clock,
  dataset F64 σ i d data -> set_len (ds_set F64 d) <= 2 ^ 30 ->
  lt F64 (ndiv F64 thr (f64_ofZ 2)) (ninf F64) ->
  (exists l, 2 <= l <= set_len (ds_set F64 d) /\ due F64 σ clock l = true /\
     1 <= (set_len (ds_set F64 d) - l + 1) * set_count (ds_set F64 d) < 5) ->
  api_group F64 σ i thr clock = Bad F64 DivZero.
Proof. intros. eapply (group_crashes F64 fin64 pos64); eauto. Qed.
(** Five series are always enough. *)
Corollary C52_five_series_suffice : forall (σ : st F64) i thr d data clock,
  dataset F64 σ i d data -> 0 <= set_len (ds_set F64 d) <= 2 ^ 30 -> 5 <= set_count (ds_set F64 d) ->
  lt F64 (ndiv F64 thr (f64_ofZ 2)) (ninf F64) ->
  exists σ' n gs, api_group F64 σ i thr clock = Done F64 σ' (VInt F64 n) /\ grouped F64 σ i thr σ' n gs.
Proof. intros. eapply C52_grouping_returns; eauto. intros l Hl _ _. nia. Qed.
(** One series of 5 values, the first dataset grouped in a process. *)
Definition one_st : st F64 :=
  mkSt F64 [Some (map f64_ofZ [1; 2; 3; 4; 5])] [Some (mkDS F64 (mkSet (Some 0%nat) 5 1 "one" false) None None)] 1
       (nzero F64) false (fun _ => None).
Example C52_case : dataset F64 one_st 0 (mkDS F64 (mkSet (Some 0%nat) 5 1 "one" false) None None) (map f64_ofZ [1; 2; 3; 4; 5]) /\
  due F64 one_st (fun _ => false) 2 = true /\ 1 <= (5 - 2 + 1) * 1 < 5.
Proof. split; [split; [reflexivity|]; exists 0%nat; repeat split; cbn; lia|]. split; [reflexivity|lia]. Qed.
