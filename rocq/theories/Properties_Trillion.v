(** * Property C50: the distance and the lower bounds of the UCR suite (trillionDTW.cpp).

    [t_dtw] is dtw(), [t_kim], [t_keogh], [t_keogh2] are the three bounds, [t_suffix] the cumulative bound that calculate() passes
    to dtw(), [t_window] the treatment of one window in calculate().  [big] is 1e20.  Warping paths and their cost are in Spec.v;
    valid cumulative bounds, sorted copies and normalised windows in TrillionSpec.v. *)
From Coq Require Import ZArith Bool Reals Lra Lia SpecFloat List.
From Verif Require Import Outcome Num RX Lemire Distance Laws F64Base RXLaws F64Laws Spec DtwProofs Numeric Metric Kim.
From Verif Require Import Trillion TrillionSpec TrillionProofs TrillionBounds.
Import ListNotations.
Open Scope Z_scope.

Lemma pos_big64 : pos64 (big F64).
Proof. split; vm_compute; reflexivity. Qed.
Lemma compare_antisym x y : SFcompare y x = match SFcompare x y with Some c => Some (CompOpp c) | None => None end.
Proof.
  destruct x as [sx|sx| |sx mx ex], y as [sy|sy| |sy my ey]; cbn; try (destruct sx); try (destruct sy); auto.
  - rewrite (Z.compare_antisym ex ey). destruct (ex ?= ey); cbn; auto. change (Pos.compare_cont Eq my mx) with (my ?= mx)%positive. rewrite (Pos.compare_antisym mx my).
    change (Pos.compare_cont Eq mx my) with (mx ?= my)%positive. destruct (mx ?= my)%positive; auto.
  - rewrite (Z.compare_antisym ex ey). destruct (ex ?= ey); cbn; auto. change (Pos.compare_cont Eq my mx) with (my ?= mx)%positive. rewrite (Pos.compare_antisym mx my).
    change (Pos.compare_cont Eq mx my) with (mx ?= my)%positive. destruct (mx ?= my)%positive; auto.
Qed.
Lemma leb_not_ltb x y : SFleb x y = true -> SFltb y x = false.
Proof. unfold SFleb, SFltb. rewrite (compare_antisym x y). destruct (SFcompare x y) as [[]|]; cbn; auto; discriminate. Qed.

(** In double arithmetic, with any cumulative bound: a result below the best so far (and 1e20) is the optimal cost. *)
Theorem C50_below_best_is_optimal : forall (a b cb : list spec_float) (r : Z) (bsf : spec_float),
  Forall fin64 a -> Forall fin64 b -> 0 <= r -> 1 <= zlen a -> zlen b = zlen a -> zlen cb = zlen a ->
  exists v, t_dtw F64 a b cb (zlen a) r bsf = Ok v /\
    (lt F64 v bsf -> lt F64 v (big F64) -> least_cost F64 a b r (zlen a - 1) (zlen b - 1) v).
Proof.
  intros a b cb r bsf Ha Hb Hr Hm Hl Hc.
  destruct (Post_inv _ _ (dtw_ok F64 fin64 pos64 f64_cost pos_big64 a b r Ha Hb Hr Hm Hl cb bsf Hc)) as (v & E & H). exists v. split; auto.
  intros Hlt Hbig. change (num F64) with spec_float in *. rewrite Hl. destruct H as [(_ & H1 & H2)|(i & mc & _ & _ & _ & -> & H)].
  - split; auto.
  - clear Hbig. apply leb_not_ltb in H. unfold lt in Hlt. change (nltb F64) with SFltb in Hlt. rewrite H in Hlt. discriminate.
Qed.
(** In double arithmetic and without a cumulative bound (zeros), dtw never exceeds the cost of an alignment: nothing is dismissed
    that is better than the best so far. *)
Theorem C50_no_false_dismissal : forall (a b cb : list spec_float) (r : Z) (bsf : spec_float) p,
  Forall fin64 a -> Forall fin64 b -> 0 <= r -> 1 <= zlen a -> zlen b = zlen a -> zlen cb = zlen a ->
  (forall k, 0 <= k < zlen a -> at_ F64 cb k = nzero F64) -> warp_path r (zlen a - 1) (zlen b - 1) p ->
  exists v, t_dtw F64 a b cb (zlen a) r bsf = Ok v /\ le F64 v (path_cost F64 a b p).
Proof.
  intros a b cb r bsf p Ha Hb Hr Hm Hl Hc Hz Hp. change (num F64) with spec_float in *. rewrite Hl in Hp.
  destruct (Post_inv _ _ (dtw_ok F64 fin64 pos64 f64_cost pos_big64 a b r Ha Hb Hr Hm Hl cb bsf Hc)) as (v & E & H). exists v. split; auto.
  eapply (dtw_zero F64 fin64 pos64 f64_cost a b r Ha Hb Hr Hm Hl cb bsf v p Hc Hz H Hp).
Qed.
(** In exact arithmetic, with a valid cumulative bound: dtw decides whether the optimal cost is below the best so far, and returns it if so. *)
Theorem C50_decides : forall (a b cb : list rx) (r : Z) (bsf C : rx),
  Forall dat_rx a -> Forall dat_rx b -> Forall dat_rx cb -> 0 <= r -> 1 <= zlen a -> zlen b = zlen a -> zlen cb = zlen a ->
  valid_bound RX a b r cb -> le RX bsf (big RX) -> bsf <> NaN -> dtw_cost RX a b r C ->
  exists v, t_dtw RX a b cb (zlen a) r bsf = Ok v /\ (lt RX v bsf <-> lt RX C bsf) /\ (lt RX v bsf -> v = C).
Proof.
  intros a b cb r bsf C Ha Hb Hcb Hr Hm Hl Hc V Hbig Nb HC. change (num RX) with rx in *.
  assert (L : least_cost RX a b r (zlen a - 1) (zlen a - 1) C).
  { destruct HC as [HC|(HC & _)]; [change (num RX) with rx in *; now rewrite Hl in HC|]. destruct (cost_least a b r Ha Hb Hr Hm Hl) as (c & ((p & Hp & _) & _) & _).
    change (num RX) with rx in *. rewrite Hl in HC. now apply HC in Hp. }
  destruct (dtw_valid a b r Ha Hb Hr Hm Hl cb bsf C Hc Hcb V L) as (v & E & Nv & H1 & H2). exists v. split; auto.
  assert (OB : lt RX v bsf -> lt RX v (big RX)).
  { intros H. apply (lt_le_trans RX ok_rx rx_ord) with bsf; auto. apply pos_ok_rx, pos_big_rx. }
  assert (H : lt RX v bsf -> v = C) by auto. split; auto. split; [intros X; now rewrite <- (H X)|].
  intros X. apply (le_lt_trans RX ok_rx rx_ord) with C; auto. destruct L as ((p & _ & <-) & _). destruct (path_cost_rx a b p Ha Hb) as (c & -> & _). discriminate.
Qed.

(** The three bounds, in exact arithmetic.  [a]: the window of the data normalised with [mean] and [s]. *)
Theorem C50_kim : forall (t q : list rx) (j m r : Z) (mean s : R) (bsf : rx) p,
  Forall dat_rx t -> Forall dat_rx q -> 0 <= j -> j + m <= zlen t -> zlen q = m -> 6 <= m -> 0 <= r -> (0 < s)%R ->
  warp_path r (m - 1) (m - 1) p ->
  exists lb, t_kim RX t q j m (Fin mean) (Fin s) bsf = Ok lb /\ le RX lb (path_cost RX (z_window RX t j m (Fin mean) (Fin s)) q p).
Proof.
  intros t q j m r mean s bsf p Ht Hq Hj Hjm Hqm Hm Hr Hs Hp.
  destruct (kim_ok t q j m r mean s Ht Hq Hj Hjm Hqm ltac:(lia) Hs bsf Hm) as (x & -> & H). eexists. split; [reflexivity|].
  rewrite (path_cost_sum _ q p (win_dat t j m mean s Ht Hs) Hq). apply le_rx. now apply H.
Qed.
(** The bound with the envelope [l], [u] of the query: also if the sum stops early; if it does not, its parts give a valid cumulative bound. *)
Theorem C50_keogh : forall (t q l u lo uo cb : list rx) (order : list Z) (j m r : Z) (mean s : R) (bsf : rx),
  Forall dat_rx t -> Forall dat_rx q -> 0 <= j -> j + m <= zlen t -> zlen q = m -> 1 <= m -> 0 <= r -> (0 < s)%R ->
  Forall dat_rx l -> Forall dat_rx u -> encloses RX m r q l u -> ordering m order -> sorted_copy RX order l lo -> sorted_copy RX order u uo -> zlen cb = m ->
  exists lb cb', t_keogh RX order t uo lo cb j m (Fin mean) (Fin s) bsf = Ok (lb, cb') /\
    (forall p, warp_path r (m - 1) (m - 1) p -> le RX lb (path_cost RX (z_window RX t j m (Fin mean) (Fin s)) q p)) /\
    (lt RX lb bsf -> forall cb0, zlen cb0 = m -> exists cum, t_suffix RX cb' cb0 m = Ok cum /\
       valid_bound RX (z_window RX t j m (Fin mean) (Fin s)) q r cum).
Proof.
  intros t q l u lo uo cb order j m r mean s bsf Ht Hq Hj Hjm Hqm Hm Hr Hs Hl Hu He Ho Sl Su Hcb.
  pose proof (fun cb0 => keogh_ok t q j m r mean s Ht Hq Hj Hjm Hqm Hm Hr Hs order cb Ho Hcb l u lo uo bsf cb0 Hl Hu He Sl Su) as K.
  destruct (Post_inv _ _ (K cb)) as ((lb & cb') & E & H). exists lb, cb'. split; auto. split; [apply H|]. intros Hlt cb0 L0.
  specialize (K cb0). rewrite E in K. cbn [Post wp fst snd] in K. destruct K as (_ & _ & _ & K). destruct (K Hlt L0) as (cum & E2 & _ & _ & V). eauto.
Qed.
(** The bound with the envelope [l], [u] of the data. *)
Theorem C50_keogh_data : forall (t q l u qo cb : list rx) (order : list Z) (j m r : Z) (mean s : R) (bsf : rx),
  Forall dat_rx t -> Forall dat_rx q -> 0 <= j -> j + m <= zlen t -> zlen q = m -> 1 <= m -> 0 <= r -> (0 < s)%R ->
  Forall dat_rx l -> Forall dat_rx u -> encloses RX m r (zslice t j m) l u -> ordering m order -> sorted_copy RX order q qo -> zlen cb = m ->
  exists lb cb', t_keogh2 RX order qo cb l u m (Fin mean) (Fin s) bsf = Ok (lb, cb') /\
    (forall p, warp_path r (m - 1) (m - 1) p -> le RX lb (path_cost RX (z_window RX t j m (Fin mean) (Fin s)) q p)) /\
    (lt RX lb bsf -> forall cb0, zlen cb0 = m -> exists cum, t_suffix RX cb' cb0 m = Ok cum /\
       valid_bound RX (z_window RX t j m (Fin mean) (Fin s)) q r cum).
Proof.
  intros t q l u qo cb order j m r mean s bsf Ht Hq Hj Hjm Hqm Hm Hr Hs Hl Hu He Ho Sq Hcb.
  pose proof (fun cb0 => keogh2_ok t q j m r mean s Ht Hq Hj Hjm Hqm Hm Hr Hs order cb Ho Hcb l u qo bsf cb0 Hl Hu He Sq) as K.
  destruct (Post_inv _ _ (K cb)) as ((lb & cb') & E & H). exists lb, cb'. split; auto. split; [apply H|]. intros Hlt cb0 L0.
  specialize (K cb0). rewrite E in K. cbn [Post wp fst snd] in K. destruct K as (_ & _ & _ & K). destruct (K Hlt L0) as (cum & E2 & _ & _ & V). eauto.
Qed.
(** One window: after it, the best distance is the optimal cost of the window if that is smaller, and unchanged otherwise. *)
Theorem C50_window : forall (t q : list rx) (order : list Z) (qo uo lo lq uq l u : list rx) (j m r : Z) (mean s : R) (bsf C : rx) (w : scratch RX),
  Forall dat_rx t -> Forall dat_rx q -> 0 <= j -> j + m <= zlen t -> zlen q = m -> 6 <= m -> 0 <= r -> (0 < s)%R ->
  pos_rx bsf -> le RX bsf (big RX) ->
  ordering m order -> sorted_copy RX order q qo -> sorted_copy RX order lq lo -> sorted_copy RX order uq uo ->
  Forall dat_rx lq -> Forall dat_rx uq -> encloses RX m r q lq uq -> Forall dat_rx l -> Forall dat_rx u -> encloses RX m r (zslice t j m) l u ->
  @zlen rx (w_cb _ w) = m -> @zlen rx (w_cb1 _ w) = m -> @zlen rx (w_cb2 _ w) = m -> @zlen rx (w_tz _ w) = m ->
  dtw_cost RX (z_window RX t j m (Fin mean) (Fin s)) q r C ->
  exists res w', t_window RX t q order qo uo lo l u j m r (Fin mean) (Fin s) bsf w = Ok (res, w') /\
    match res with Some d => if nltb RX d bsf then d else bsf | None => bsf end = if nltb RX C bsf then C else bsf.
Proof.
  intros t q order qo uo lo lq uq l u j m r mean s bsf C w Ht Hq Hj Hjm Hqm H6 Hr Hs Pb Hbig Ho Sq Sl Su Dl Du El Dl' Du' El' Wb W1 W2 Wz HC.
  assert (Hm : 1 <= m) by lia. pose proof (win_len t j m mean s Hj Hjm Hm) as Wl. pose proof (win_dat t j m mean s Ht Hs) as Wd.
  assert (L : least_cost RX (z_window RX t j m (Fin mean) (Fin s)) q r (m - 1) (m - 1) C).
  { destruct HC as [HC|(HC & _)]; [change (num RX) with rx in *; now rewrite Wl, Hqm in HC|].
    destruct (cost_least _ q r Wd Hq Hr ltac:(rewrite Wl; lia) ltac:(rewrite Wl; lia)) as (c & ((p & Hp & _) & _) & _). change (num RX) with rx in *. rewrite Wl in Hp. rewrite Wl, Hqm in HC. now apply HC in Hp. }
  destruct (window_ok t q j m r mean s Ht Hq Hj Hjm Hqm Hm Hr Hs order qo uo lo lq uq l u bsf w H6 Pb Hbig Ho Sq Sl Su Dl Du El Dl' Du' El' Wb W1 W2 Wz C L)
    as (res & w' & E & _ & _ & _ & _ & H). exists res, w'. split; auto. unfold lt in H. destruct res as [d|].
  - destruct H as (H1 & H2). destruct (nltb RX d bsf) eqn:B.
    + rewrite (H1 eq_refl) in *. now rewrite B.
    + destruct (nltb RX C bsf); auto. now discriminate H2.
  - destruct (nltb RX C bsf); auto. now destruct H.
Qed.

(** ** What does not hold *)

(** Normalisation as calculate() does it (mean and standard deviation from the sum and the sum of squares). *)
Definition mean64 (x : list spec_float) : spec_float := ndiv F64 (fold_left (nadd F64) x (nzero F64)) (f64_ofZ (zlen x)).
Definition std64 (x : list spec_float) : spec_float :=
  nsqrt F64 (nsub F64 (ndiv F64 (fold_left (fun s v => nadd F64 s (nmul F64 v v)) x (nzero F64)) (f64_ofZ (zlen x))) (nmul F64 (mean64 x) (mean64 x))).
Definition znorm64 (x : list spec_float) : list spec_float := map (znorm F64 (mean64 x) (std64 x)) x.
(** For windows of 3, 4 or 5 points the first bound can exceed the optimal cost: the same points are counted from both ends. *)
Theorem C50_kim_short_refuted : forall m, 3 <= m <= 5 -> exists (t q0 : list spec_float) lb v,
  Forall fin64 t /\ Forall fin64 q0 /\ zlen t = m /\ zlen q0 = m /\
  t_kim F64 t (znorm64 q0) 0 m (mean64 t) (std64 t) (big F64) = Ok lb /\
  least_cost F64 (znorm64 t) (znorm64 q0) 0 (m - 1) (m - 1) v /\ lt F64 v lb.
Proof.
  assert (D : forall t q0 lb v, Forall fin64 t -> Forall fin64 q0 -> zlen q0 = zlen t -> Forall fin64 (znorm64 t) -> Forall fin64 (znorm64 q0) -> 1 <= zlen t ->
    t_kim F64 t (znorm64 q0) 0 (zlen t) (mean64 t) (std64 t) (big F64) = Ok lb ->
    t_dtw F64 (znorm64 t) (znorm64 q0) (repeat (nzero F64) (length t)) (zlen t) 0 (big F64) = Ok v -> SFltb v (big F64) = true -> SFltb v lb = true ->
    exists (t0 q1 : list spec_float) lb v, Forall fin64 t0 /\ Forall fin64 q1 /\ zlen t0 = zlen t /\ zlen q1 = zlen t /\
      t_kim F64 t0 (znorm64 q1) 0 (zlen t) (mean64 t0) (std64 t0) (big F64) = Ok lb /\
      least_cost F64 (znorm64 t0) (znorm64 q1) 0 (zlen t - 1) (zlen t - 1) v /\ lt F64 v lb).
  { intros t q0 lb v Ht Hq Hl Dt Dq Hm E1 E2 B1 B2. exists t, q0, lb, v. do 5 (split; auto). split; auto.
    assert (Zt : zlen (znorm64 t) = zlen t) by (unfold znorm64; now rewrite zlen_map). assert (Zq : zlen (znorm64 q0) = zlen t) by (unfold znorm64; now rewrite zlen_map).
    destruct (C50_below_best_is_optimal (znorm64 t) (znorm64 q0) (repeat (nzero F64) (length t)) 0 (big F64)) as (v' & E3 & H); auto; try lia.
    { rewrite Zt. unfold zlen. now rewrite repeat_length. }
    rewrite Zt in E3. rewrite E3 in E2. injection E2 as ->. rewrite Zt, Zq in H. apply H; auto. }
  assert (Dz : forall l, forallb (fun x => is_f64 x && match x with S754_zero _ | S754_finite _ _ _ => true | _ => false end) l = true -> Forall fin64 l).
  { intros l H. apply Forall_forall. intros x Hx. rewrite forallb_forall in H. specialize (H x Hx). apply andb_prop in H as (H1 & H2). split; auto. now destruct x. }
  intros m Hm. assert (m = 3 \/ m = 4 \/ m = 5) as [->|[->| ->]] by lia.
  - apply (D (map f64_ofZ [1; 3; 3]) (map f64_ofZ [-1; -3; -3])
      match t_kim F64 (map f64_ofZ [1; 3; 3]) (znorm64 (map f64_ofZ [-1; -3; -3])) 0 3 (mean64 (map f64_ofZ [1; 3; 3])) (std64 (map f64_ofZ [1; 3; 3])) (big F64) with Ok x => x | _ => nzero F64 end
      match t_dtw F64 (znorm64 (map f64_ofZ [1; 3; 3])) (znorm64 (map f64_ofZ [-1; -3; -3])) (repeat (nzero F64) 3) 3 0 (big F64) with Ok x => x | _ => nzero F64 end);
      try (apply Dz); try (vm_compute; reflexivity). vm_compute; discriminate.
  - apply (D (map f64_ofZ [1; 1; -4; 1]) (map f64_ofZ [-1; -1; -1; 4])
      match t_kim F64 (map f64_ofZ [1; 1; -4; 1]) (znorm64 (map f64_ofZ [-1; -1; -1; 4])) 0 4 (mean64 (map f64_ofZ [1; 1; -4; 1])) (std64 (map f64_ofZ [1; 1; -4; 1])) (big F64) with Ok x => x | _ => nzero F64 end
      match t_dtw F64 (znorm64 (map f64_ofZ [1; 1; -4; 1])) (znorm64 (map f64_ofZ [-1; -1; -1; 4])) (repeat (nzero F64) 4) 4 0 (big F64) with Ok x => x | _ => nzero F64 end);
      try (apply Dz); try (vm_compute; reflexivity). vm_compute; discriminate.
  - apply (D (map f64_ofZ [0; 0; -2; 0; 0]) (map f64_ofZ [4; 0; 0; 2; 0])
      match t_kim F64 (map f64_ofZ [0; 0; -2; 0; 0]) (znorm64 (map f64_ofZ [4; 0; 0; 2; 0])) 0 5 (mean64 (map f64_ofZ [0; 0; -2; 0; 0])) (std64 (map f64_ofZ [0; 0; -2; 0; 0])) (big F64) with Ok x => x | _ => nzero F64 end
      match t_dtw F64 (znorm64 (map f64_ofZ [0; 0; -2; 0; 0])) (znorm64 (map f64_ofZ [4; 0; 0; 2; 0])) (repeat (nzero F64) 5) 5 0 (big F64) with Ok x => x | _ => nzero F64 end);
      try (apply Dz); try (vm_compute; reflexivity). vm_compute; discriminate.
Qed.
(** Costs from 1e20 on: dtw returns less than the optimal cost even when it does not abandon (1e20 stands for "no path" in the rows). *)
Theorem C50_large_cost_witness : exists (a b cb : list spec_float) v, Forall fin64 a /\ Forall fin64 b /\ zlen b = zlen a /\ zlen cb = zlen a /\
  t_dtw F64 a b cb (zlen a) 0 (ninf F64) = Ok v /\ forall p, warp_path 0 (zlen a - 1) (zlen a - 1) p -> lt F64 v (path_cost F64 a b p).
Proof.
  exists (map f64_ofZ [2 ^ 40; 0]), (map f64_ofZ [0; 0]), (map f64_ofZ [0; 0]), (big F64). repeat split; try (now apply fin64_Zs).
  assert (P1 : forall i j p, warp_path 0 i j p -> i = j) by (intros i j p H; apply path_range in H; lia).
  change (zlen _ - 1) with 1. intros p Hp. inversion Hp as [|i j p0 i' j' H0 S _]; subst. pose proof (P1 _ _ _ H0). subst j.
  assert (i = 0) by (destruct S as [?|[?|?]]; lia). subst i. inversion H0 as [|i j p1 i' j' H1 S1 _ E1 E2]; subst; [vm_compute; reflexivity|].
  apply path_range in H1; [|lia]. destruct S1 as [?|[?|?]]; lia.
Qed.
(** A call with no points is undefined: the index of the returned cell was never set. *)
Theorem C50_empty_undefined : forall (N : NumOps) (A B cb : list (num N)) (m r : Z) (bsf : num N), m <= 0 -> t_dtw N A B cb m r bsf = UB Uninit.
Proof. intros. unfold t_dtw, forb. replace (Z.to_nat (m - 0)) with 0%nat by lia. reflexivity. Qed.

(** ** Cases *)
Example C50_case : exists a b cb v, Forall fin64 a /\ Forall fin64 b /\ zlen a = 4 /\ zlen b = 4 /\ zlen cb = 4 /\
  t_dtw F64 a b cb 4 1 (f64_ofZ 10) = Ok v /\ lt F64 v (f64_ofZ 10) /\ lt F64 v (big F64) /\ v = f64_ofZ 2.
Proof.
  exists (map f64_ofZ [0; 1; 2; 5]), (map f64_ofZ [1; 2; 2; 6]), (map f64_ofZ [0; 0; 0; 0]), (f64_ofZ 2).
  repeat split; try (now apply fin64_Zs); vm_compute; reflexivity.
Qed.
(** ... and abandoning after the first row, with a best so far of 3 and cost at least 3 + 1 left in the last two rows. *)
Example C50_case_abandons : t_dtw F64 (map f64_ofZ [3; 3; 5; 9]) (map f64_ofZ [1; 1; 5; 8]) (map f64_ofZ [0; 0; 1; 1]) 4 1 (f64_ofZ 5) = Ok (f64_ofZ 5).
Proof. vm_compute. reflexivity. Qed.

Definition rz (l : list Z) : list rx := map (fun z => Fin (IZR z)) l.
Lemma rz_dat l : Forall dat_rx (rz l).
Proof. apply Forall_map, Forall_forall. intros z _. now exists (IZR z). Qed.
Lemma rz_at l k : at_ RX (rz l) k = Fin (IZR (nth (Z.to_nat k) l 0)).
Proof. unfold at_, rz. change (nzero RX) with ((fun z => Fin (IZR z)) 0). apply map_nth. Qed.
Lemma rz_encloses m r x l u : m <= zlen x -> m <= zlen l -> m <= zlen u ->
  forallb (fun o => forallb (fun k => (nth (Z.to_nat o) l 0 <=? nth (Z.to_nat k) x 0) && (nth (Z.to_nat k) x 0 <=? nth (Z.to_nat o) u 0)) (zup (Z.max 0 (o - r)) (Z.min m (o + r + 1)))) (zup 0 m) = true ->
  encloses RX m r (rz x) (rz l) (rz u).
Proof.
  intros Hx Hl Hu H. unfold encloses. unfold rz at 1 2 3. rewrite !zlen_map. do 3 (split; auto). intros o k Ho Hk Hb. rewrite !rz_at, !le_rx.
  rewrite forallb_forall in H. specialize (H o). rewrite zup_in in H. specialize (H Ho). rewrite forallb_forall in H. specialize (H k). rewrite zup_in in H. specialize (H ltac:(lia)).
  apply andb_prop in H as (H1 & H2). apply Z.leb_le in H1, H2. split; now apply IZR_le.
Qed.
Lemma rz_sorted order x xo : zlen order = zlen xo -> forallb (fun i => nth (Z.to_nat i) xo 0 =? nth (Z.to_nat (nth (Z.to_nat i) order 0)) x 0) (zup 0 (zlen order)) = true ->
  Forall (fun o => 0 <= o < zlen x) order -> sorted_copy RX order (rz x) (rz xo).
Proof.
  intros Hl H Hf. split; [unfold rz; now rewrite zlen_map|]. intros i o Ho. pose proof (zget_inv _ _ _ Ho) as (Ri & Hi).
  rewrite forallb_forall in H. specialize (H i). rewrite zup_in in H. specialize (H Ri). apply Z.eqb_eq in H. rewrite (nth_error_nth _ _ 0 Hi) in H.
  assert (Ro : 0 <= o < zlen x) by (rewrite Forall_forall in Hf; apply Hf; eapply nth_error_In, Hi).
  change (num RX) with rx. rewrite (zget_rx (rz xo) i), (zget_rx (rz x) o) by (unfold rz; rewrite zlen_map; lia). now rewrite !rz_at, H.
Qed.
(** The hypotheses of the theorems on bounds and windows are met by a buffer of 8 points, the window of 6 from position 1, and a band of 1. *)
Example C50_case_window : exists (t q : list rx) order (qo uo lo lq uq l u : list rx) (w : scratch RX),
  Forall dat_rx t /\ Forall dat_rx q /\ 1 + 6 <= zlen t /\ zlen q = 6 /\
  ordering 6 order /\ sorted_copy RX order q qo /\ sorted_copy RX order lq lo /\ sorted_copy RX order uq uo /\
  Forall dat_rx lq /\ Forall dat_rx uq /\ encloses RX 6 1 q lq uq /\ Forall dat_rx l /\ Forall dat_rx u /\ encloses RX 6 1 (zslice t 1 6) l u /\
  @zlen rx (w_cb _ w) = 6 /\ @zlen rx (w_cb1 _ w) = 6 /\ @zlen rx (w_cb2 _ w) = 6 /\ @zlen rx (w_tz _ w) = 6 /\
  (exists C, dtw_cost RX (z_window RX t 1 6 (Fin 2) (Fin 3)) q 1 C).
Proof.
  exists (rz [9; 0; 1; 5; 2; 4; 8; 9]), (rz [1; -1; 0; 2; -2; 0]), [3; 4; 0; 1; 2; 5], (rz [2; -2; 1; -1; 0; 0]), (rz [2; 2; 1; 1; 2; 0]), (rz [-2; -2; -1; -1; -1; -2]),
    (rz [-1; -1; -1; -2; -2; -2]), (rz [1; 1; 2; 2; 2; 0]), (rz [0; 0; 1; 2; 2; 4]), (rz [1; 5; 5; 5; 8; 8]),
    (mkScratch RX (rz [0; 0; 0; 0; 0; 0]) (rz [0; 0; 0; 0; 0; 0]) (rz [0; 0; 0; 0; 0; 0]) (rz [0; 0; 0; 0; 0; 0])).
  split; [apply rz_dat|]. split; [apply rz_dat|]. split; [vm_compute; discriminate|]. split; [reflexivity|].
  split. { split; [reflexivity|]. split; [|repeat constructor; lia]. repeat constructor; cbn; intuition discriminate. }
  do 3 (split; [apply rz_sorted; [reflexivity|vm_compute; reflexivity|repeat constructor; vm_compute; intuition discriminate]|]).
  split; [apply rz_dat|]. split; [apply rz_dat|]. split; [apply rz_encloses; [vm_compute; discriminate..|vm_compute; reflexivity]|].
  split; [apply rz_dat|]. split; [apply rz_dat|].
  split; [change (zslice (rz [9; 0; 1; 5; 2; 4; 8; 9]) 1 6) with (rz [0; 1; 5; 2; 4; 8]); apply rz_encloses; [vm_compute; discriminate..|vm_compute; reflexivity]|].
  do 4 (split; [reflexivity|]).
  destruct (cost_least (z_window RX (rz [9; 0; 1; 5; 2; 4; 8; 9]) 1 6 (Fin 2) (Fin 3)) (rz [1; -1; 0; 2; -2; 0]) 1) as (c & H & _).
  - apply win_dat; [apply rz_dat|lra].
  - apply rz_dat.
  - lia.
  - rewrite win_len; vm_compute; intuition discriminate.
  - rewrite win_len; vm_compute; intuition discriminate.
  - exists (Fin c). left. change (num RX) with rx in *. rewrite win_len in *; try (vm_compute; intuition discriminate). exact H.
Qed.
