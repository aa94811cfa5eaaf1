(** * Property C56: the search of the UCR suite (calculate, trillionDTW.cpp:245-572) finds the nearest window.

    Exact arithmetic.  [window_distance] and [nearest] are in SearchSpec.v.  [epoch] is EPOCH, 100000 in the code; the theorems hold
    for every value not below the length of the query.  [fuel] bounds the number of chunks; every [fuel] above the number of
    values in the file is enough.  [sort] is what qsort does to the positions; the theorems hold whatever order it leaves. *)
From Coq Require Import ZArith Bool Reals Lra Lia SpecFloat List.
From Verif Require Import Outcome Num RX Lemire LemireProofs Distance Laws F64Base RXLaws F64Laws Spec Numeric Metric Kim.
From Verif Require TsProofs.
From Verif Require Import Trillion TrillionSpec TrillionProofs TrillionBounds Search SearchSpec SearchProofs Properties_Trillion.
Import ListNotations.
Open Scope Z_scope.

(** The file of the data and the file of the query (which may go on after the first m values). *)
Definition clean (xs : list R) : nfile RX := mkNFile RX (map Fin xs) false.
Definition broken (xs : list R) : nfile RX := mkNFile RX (map Fin xs) true.

(** The search ends and reports the first window of least distance, with that distance. *)
Theorem C56_nearest : forall fuel epoch sort (xs ys extra : list R) (bad : bool) (r : Z),
  6 <= zlen ys <= epoch -> 0 <= r <= zlen ys - 1 -> varying ys -> (forall l : list rx, ordering (zlen l) (sort l)) -> zlen xs < Z.of_nat fuel ->
  exists loc B, calculate RX fuel epoch sort (clean xs) (mkNFile RX (map Fin (ys ++ extra)) bad) (zlen ys) r = Ok (mkFound RX loc (Fin B) (Z.max (zlen xs) (zlen ys - 1))) /\
    nearest xs ys r (zlen xs - zlen ys + 1) loc B.
Proof.
  intros fuel epoch sort xs ys extra bad r (H6 & He) Hr V Hs Hf.
  destruct (calculate_ok xs ys r epoch H6 He Hr fuel sort extra bad V Hs Hf) as (loc & B & E & (N1 & N2) & _). exists loc, B. split; [exact E|].
  destruct (Z_le_gt_dec 0 (zlen xs - zlen ys + 1)) as [H|H].
  - rewrite Z.max_r in N1, N2 by lia. now split.
  - rewrite Z.max_l in N1, N2 by lia. split; [intros; lia|]. destruct N2 as [N2|(_ & N2 & _)]; [now left|lia].
Qed.

(** The description above determines location and distance. *)
Theorem C56_unique : forall xs ys r K loc loc' B B', nearest xs ys r K loc B -> nearest xs ys r K loc' B' -> loc = loc' /\ B = B'.
Proof.
  intros xs ys r K loc loc' B B' (H1 & H2) (H1' & H2'). generalize dependent (IZR (10 ^ 20)). intros M H2 H2'.
  destruct H2 as [(-> & ->)|(L & R & W & F)], H2' as [(E' & ->)|(L' & R' & W' & F')].
  - auto.
  - pose proof (H1 _ _ R' W'). lra.
  - pose proof (H1' _ _ R W). lra.
  - pose proof (H1 _ _ R' W') as A. pose proof (H1' _ _ R W) as A'. assert (B = B') by lra. subst B'. split; auto.
    destruct (Z.lt_trichotomy loc loc') as [X|[X|X]]; auto; exfalso.
    + pose proof (F' _ _ (conj (proj1 R) X) W). lra.
    + pose proof (F _ _ (conj (proj1 R') X) W'). lra.
Qed.

(** Scaling by a positive factor and shifting, of the data and of the query, change nothing. *)
Definition affine (a b : R) (l : list R) : list R := map (fun x => a * x + b)%R l.
Lemma affine_len a b l : zlen (affine a b l) = zlen l.
Proof. unfold affine. apply zlen_map. Qed.
Lemma affine_mean a b l : l <> [] -> rmean (affine a b l) = (a * rmean l + b)%R.
Proof.
  intros H. pose proof (rlen_pos l H) as P. unfold rmean. assert (E : rsum (affine a b l) = (a * rsum l + rlen l * b)%R).
  { clear H P. unfold rlen, zlen, affine. induction l as [|x l IH]; [cbn; lra|]. cbn [map rsum]. rewrite IH. cbn [length]. rewrite Nat2Z.inj_succ, succ_IZR. lra. }
  unfold rlen in *. rewrite affine_len, E. field. lra.
Qed.
Lemma affine_sd a b l : (0 < a)%R -> l <> [] -> rsd (affine a b l) = (a * rsd l)%R.
Proof.
  intros Ha H. pose proof (rlen_pos l H) as P. pose proof (dev2_pos l H) as D. unfold rsd. fold (dev2 l). rewrite <- (sqrt_square a) at 3 by lra. rewrite <- sqrt_mult by (auto; nra). f_equal.
  unfold dev2, rlen in *. rewrite affine_len, affine_mean by auto. generalize (rmean l). intros c.
  assert (E : rsum (map (fun x => (x - (a * c + b)) * (x - (a * c + b)))%R (affine a b l)) = (a * a * rsum (map (fun x => (x - c) * (x - c))%R l))%R).
  { unfold affine. clear. induction l as [|x l IH]; [cbn; lra|]. cbn [map rsum]. rewrite IH. ring. }
  rewrite E. field. lra.
Qed.
Lemma affine_varying a b l : (0 < a)%R -> varying (affine a b l) <-> varying l.
Proof.
  intros Ha. unfold affine. split.
  - intros (x & y & Hx & Hy & Hn). apply in_map_iff in Hx as (x' & <- & Hx). apply in_map_iff in Hy as (y' & <- & Hy). exists x', y'. split; auto. split; auto. congruence.
  - intros (x & y & Hx & Hy & Hn). exists (a * x + b)%R, (a * y + b)%R. split; [apply in_map_iff; eauto|]. split; [apply in_map_iff; eauto|]. intros E. apply Hn. apply (Rmult_eq_reg_l a); lra.
Qed.
Lemma affine_normal a b l : (0 < a)%R -> varying l -> znormal (affine a b l) = znormal l.
Proof.
  intros Ha V. assert (H : l <> []) by (intros ->; destruct V as (? & ? & [] & _)). pose proof (varying_sd l V). unfold znormal. rewrite affine_mean, affine_sd by auto.
  unfold affine. rewrite map_map. apply map_ext. intros x. field. lra.
Qed.
Lemma affine_nearest a b c d xs ys r K loc B : (0 < a)%R -> (0 < c)%R -> varying ys -> nearest (affine a b xs) (affine c d ys) r K loc B <-> nearest xs ys r K loc B.
Proof.
  intros Ha Hc V. assert (W : forall k C, window_distance (affine a b xs) (affine c d ys) r k C <-> window_distance xs ys r k C).
  { intros k C. unfold window_distance. rewrite affine_len, (affine_normal c d ys) by auto. unfold affine. rewrite zslice_map. fold (affine a b (zslice xs k (zlen ys))). rewrite affine_varying by auto.
    split; intros (V1 & V2); (split; [auto|]); [rewrite affine_normal in V2 by auto|rewrite affine_normal by auto]; auto. }
  unfold nearest. generalize (IZR (10 ^ 20)). intros M. split; intros (H1 & H2); (split; [intros k C Hk HC; apply (H1 k C Hk); now apply W|]);
    (destruct H2 as [H2|(L & R & X & F)]; [now left|right]); (split; [auto|]; split; [auto|]; split; [now apply W|]); intros k C Hk HC; apply (F k C Hk); now apply W.
Qed.
Theorem C56_affine : forall fuel epoch sort (xs ys : list R) (r : Z) (a b c d : R),
  6 <= zlen ys <= epoch -> 0 <= r <= zlen ys - 1 -> varying ys -> (forall l : list rx, ordering (zlen l) (sort l)) -> zlen xs < Z.of_nat fuel ->
  (0 < a)%R -> (0 < c)%R ->
  calculate RX fuel epoch sort (clean (affine a b xs)) (clean (affine c d ys)) (zlen ys) r = calculate RX fuel epoch sort (clean xs) (clean ys) (zlen ys) r.
Proof.
  intros fuel epoch sort xs ys r a b c d Hm Hr V Hs Hf Ha Hc.
  destruct (C56_nearest fuel epoch sort xs ys [] false r Hm Hr V Hs Hf) as (loc & B & E & H).
  destruct (C56_nearest fuel epoch sort (affine a b xs) (affine c d ys) [] false r) as (loc' & B' & E' & H'); rewrite ?affine_len; auto; [now apply affine_varying|].
  rewrite !app_nil_r, !affine_len in *. unfold clean. rewrite affine_nearest in H' by auto. destruct (C56_unique _ _ _ _ _ _ _ _ H H') as (-> & ->).
  change (num RX) with rx in *. unfold clean in *. now rewrite E, E'.
Qed.

(** A scaled and shifted copy of the query in the data is found: distance 0, at the place of the copy or before. *)
Lemma path_cost_snoc (a b : list rx) p c : path_cost RX a b (p ++ [c]) = nadd RX (path_cost RX a b p) (sqd RX (at_ RX a (fst c)) (at_ RX b (snd c))).
Proof. unfold path_cost. now rewrite fold_left_app. Qed.
Lemma self_cost (l : list R) r : 0 <= r -> 1 <= zlen l -> dtw_cost RX (map Fin l) (map Fin l) r (Fin 0).
Proof.
  intros Hr Hl. left. change (num RX) with rx. rewrite zlen_map.
  assert (S : forall k, sqd RX (at_ RX (map Fin l) k) (at_ RX (map Fin l) k) = Fin 0). { intros k. rewrite at_fin, sqd_rx. f_equal. unfold sq. ring. }
  split.
  - assert (D : forall n, exists p, warp_path r (Z.of_nat n) (Z.of_nat n) p /\ path_cost RX (map Fin l) (map Fin l) p = Fin 0).
    { induction n as [|n (p & Hp & Ep)].
      - exists [(0, 0)]. split; [constructor|]. unfold path_cost. cbn [fold_left fst snd]. rewrite S. cbn. f_equal. lra.
      - exists (p ++ [(Z.of_nat (Datatypes.S n), Z.of_nat (Datatypes.S n))]). split; [apply (path_step r (Z.of_nat n) (Z.of_nat n)); [exact Hp|unfold warp_step; right; right; lia|lia]|]. rewrite path_cost_snoc, Ep. cbn [fst snd]. rewrite S. cbn. f_equal. lra. }
    destruct (D (Z.to_nat (zlen l - 1))) as (p & Hp & Ep). rewrite Z2Nat.id in Hp by lia. eauto.
  - assert (P : forall p acc, (exists c, acc = Fin c /\ (0 <= c)%R) -> exists c, fold_left (fun acc c => nadd RX acc (sqd RX (at_ RX (map Fin l) (fst c)) (at_ RX (map Fin l) (snd c)))) p acc = Fin c /\ (0 <= c)%R).
    { induction p as [|q p IH]; intros acc (c & -> & Hc); [exists c; auto|]. cbn [fold_left]. apply IH. rewrite !at_fin, sqd_rx. cbn [nadd RX rx_add]. eexists. split; [reflexivity|]. match goal with |- (0 <= c + ?e)%R => assert (0 <= e)%R by (unfold sq; apply Rle_0_sqr) end. lra. }
    intros p _. destruct (P p (nzero RX)) as (c & E & Hc); [exists 0%R; split; [reflexivity|lra]|]. unfold path_cost. rewrite E. cbn. unfold Rltb. destruct (Rlt_dec c 0); [lra|reflexivity].
Qed.
Theorem C56_finds_copy : forall fuel epoch sort (xs ys extra : list R) (bad : bool) (r k : Z) (a b : R),
  6 <= zlen ys <= epoch -> 0 <= r <= zlen ys - 1 -> varying ys -> (forall l : list rx, ordering (zlen l) (sort l)) -> zlen xs < Z.of_nat fuel ->
  0 <= k -> k + zlen ys <= zlen xs -> (0 < a)%R -> zslice xs k (zlen ys) = map (fun y => a * y + b)%R ys ->
  exists loc, calculate RX fuel epoch sort (clean xs) (mkNFile RX (map Fin (ys ++ extra)) bad) (zlen ys) r = Ok (mkFound RX loc (Fin 0) (zlen xs)) /\ 0 <= loc <= k.
Proof.
  intros fuel epoch sort xs ys extra bad r k a b (H6 & He) Hr V Hs Hf Hk Hkm Ha Ec.
  destruct (calculate_ok xs ys r epoch H6 He Hr fuel sort extra bad V Hs Hf) as (loc & B & E & (N1 & N2) & Hb).
  assert (W : window_distance xs ys r k 0).
  { split; rewrite Ec; fold (affine a b ys); [now apply affine_varying|]. rewrite affine_normal by auto. apply self_cost; [lia|]. unfold znormal. rewrite zlen_map. lia. }
  pose proof (N1 k 0%R ltac:(lia) W) as Hz. assert (B = 0%R) by lra. subst B. exists loc. unfold clean. change (num RX) with rx in *. rewrite E, Z.max_l by lia. split; auto.
  destruct N2 as [(X & ->)|(_ & X & _ & F)]; [lia|]. split; [lia|]. destruct (Z_le_gt_dec loc k); auto. specialize (F k 0%R ltac:(lia) W). lra.
Qed.

(** Fewer values than the query: nothing is found, and the report counts m-1 values if there are fewer. *)
Theorem C56_short_data : forall fuel epoch sort (xs ys extra : list R) (bad : bool) (r : Z),
  6 <= zlen ys <= epoch -> 0 <= r <= zlen ys - 1 -> varying ys -> (forall l : list rx, ordering (zlen l) (sort l)) -> zlen xs < Z.of_nat fuel ->
  zlen xs < zlen ys ->
  calculate RX fuel epoch sort (clean xs) (mkNFile RX (map Fin (ys ++ extra)) bad) (zlen ys) r = Ok (mkFound RX 0 (Fin (IZR (10 ^ 20))) (zlen ys - 1)).
Proof.
  intros fuel epoch sort xs ys extra bad r Hm Hr V Hs Hf Hx. destruct (C56_nearest fuel epoch sort xs ys extra bad r Hm Hr V Hs Hf) as (loc & B & E & H1 & H2).
  rewrite E. rewrite Z.max_r by lia. destruct H2 as [(-> & ->)|(_ & X & _)]; [reflexivity|lia].
Qed.

(** A data file that holds anything that is not a number: the search never ends, whatever comes before. *)
Theorem C56_never_ends : forall fuel epoch sort (xs ys extra : list R) (bad : bool) (r : Z),
  6 <= zlen ys <= epoch -> 0 <= r <= zlen ys - 1 -> varying ys -> (forall l : list rx, ordering (zlen l) (sort l)) ->
  calculate RX fuel epoch sort (broken xs) (mkNFile RX (map Fin (ys ++ extra)) bad) (zlen ys) r = NoFuel.
Proof. intros fuel epoch sort xs ys extra bad r (H6 & He) Hr V Hs. apply (calculate_forever xs ys r epoch H6 He Hr fuel sort extra bad V Hs). Qed.

(** A query file with fewer than m numbers: cells of q that were never set are read. *)
Lemma read_query_short N n : forall (l : list (num N)) d q a b, (length l < n)%nat -> exists q' a' b' d', read_query N n (mkNFile N l false) d q a b = Ok (q', a', b', d') /\ length q' = (length q + length l)%nat.
Proof.
  induction n as [|n IH]; intros l d q a b H; [lia|]. destruct l as [|x l]; cbn; [do 4 eexists; split; [reflexivity|lia]|].
  destruct (IH l (Some x) (q ++ [x]) (nadd N a x) (nadd N b (nmul N x x))) as (q' & a' & b' & d' & E & L); [cbn in H; lia|]. exists q', a', b', d'. split; auto. rewrite L, app_length. cbn. lia.
Qed.
Theorem C56_short_query : forall N fuel epoch sort data (ys : list (num N)) (m r : Z), zlen ys < m ->
  calculate N fuel epoch sort data (mkNFile N ys false) m r = UB Uninit.
Proof.
  intros N fuel epoch sort data ys m r H. unfold calculate, prepare. destruct (read_query_short N (Z.to_nat m) ys None [] (nzero N) (nzero N)) as (q & a & b & d & E & L); [unfold zlen in H; lia|].
  rewrite E. cbn [bind]. destruct (Z.ltb_spec (zlen q) m) as [|X]; [reflexivity|]. unfold zlen in *. cbn in L. lia.
Qed.
(** A query file that does not start with a number: a variable that was never set is read. *)
Theorem C56_no_query : forall N fuel epoch sort data (m r : Z), 1 <= m -> calculate N fuel epoch sort data (mkNFile N [] true) m r = UB Uninit.
Proof. intros N fuel epoch sort data m r H. unfold calculate, prepare. replace (Z.to_nat m) with (S (Z.to_nat (m - 1))) by lia. reflexivity. Qed.
(** A warping band of at least the length of the query: written outside the arrays of the envelope. *)
Theorem C56_wide_band : forall fuel epoch sort data (ys extra : list R) (bad : bool) (r : Z), 1 <= zlen ys <= r -> varying ys ->
  calculate RX fuel epoch sort data (mkNFile RX (map Fin (ys ++ extra)) bad) (zlen ys) r = UB OutOfBounds.
Proof.
  intros fuel epoch sort data ys extra bad r Hm V. assert (Hy : ys <> []) by (intros ->; cbn in Hm; lia). unfold calculate, prepare. change (nzero RX) with (Fin 0).
  destruct (read_query_ok ys extra bad None [] 0 0) as (d & E & _ & _).
  assert (Hl : Z.to_nat (zlen ys) = length ys) by (unfold zlen; lia). change (num RX) with rx in *. rewrite Hl, E. cbn [bind app]. change (num RX) with rx. rewrite zlen_map.
  destruct (Z.ltb_spec (zlen ys) (zlen ys)); [lia|]. rewrite !Rplus_0_l, mean_rx, std_rx by auto.
  assert (Z : map (znorm RX (Fin (rmean ys)) (Fin (rsd ys))) (map Fin ys) = map Fin (znormal ys)). { unfold znormal. rewrite !map_map. apply map_ext. intros y. apply znorm_rx. pose proof (varying_sd ys V). lra. }
  change (num RX) with rx in *. rewrite Z. assert (Lz : zlen (znormal ys) = zlen ys) by (unfold znormal; apply zlen_map).
  rewrite (lemire_wide RX ok_rx rx_ord (map Fin (znormal ys))); [reflexivity|apply Forall_map, Forall_forall; intros; discriminate| |]; change (num RX) with rx; rewrite zlen_map; lia.
Qed.

Lemma fin_list l : forallb (fun x => is_f64 x && match x with S754_zero _ | S754_finite _ _ _ => true | _ => false end) l = true -> Forall fin64 l.
Proof. intros F. apply Forall_forall. intros x Hx. rewrite forallb_forall in F. specialize (F x Hx). apply andb_prop in F as (H1 & H2). split; auto. now destruct x. Qed.
Definition found_above (o : outcome (found F64)) (n : Z) (C : spec_float) : bool :=
  match o with Ok f => (fo_loc F64 f =? 0) && (fo_scanned F64 f =? n) && SFltb C (fo_bsf F64 f) | _ => false end.
Lemma found_above_ok o n C : found_above o n C = true -> exists B, o = Ok (mkFound F64 0 B n) /\ SFltb C B = true.
Proof.
  destruct o as [[l B k]| | |]; cbn [found_above fo_loc fo_bsf fo_scanned]; try discriminate. intros H. apply andb_prop in H as (H & H3). apply andb_prop in H as (H1 & H2).
  apply Z.eqb_eq in H1, H2. subst. eauto.
Qed.
(** Windows of 3, 4 or 5 points: the search can miss a nearer window (in double arithmetic, with the code's chunk size).
    [znorm64] is the normalisation in doubles of the code. *)
Theorem C56_short_windows_refuted : forall m, 3 <= m <= 5 -> exists (xs ys : list spec_float) order r B C,
  Forall fin64 xs /\ Forall fin64 ys /\ zlen xs = m + 1 /\ zlen ys = m /\ ordering m order /\
  calculate F64 10 100000 (fun _ => order) (mkNFile F64 xs false) (mkNFile F64 ys false) m r = Ok (mkFound F64 0 B (m + 1)) /\
  least_cost F64 (znorm64 (zslice xs 1 m)) (znorm64 ys) r (m - 1) (m - 1) C /\ lt F64 C B.
Proof.
  assert (D : forall m (xs ys : list spec_float) order r C, m = zlen ys -> zlen xs = m + 1 -> 1 <= m -> 0 <= r ->
    forallb (fun x => is_f64 x && match x with S754_zero _ | S754_finite _ _ _ => true | _ => false end) (xs ++ ys ++ znorm64 (zslice xs 1 m) ++ znorm64 ys) = true ->
    ordering m order ->
    t_dtw F64 (znorm64 (zslice xs 1 m)) (znorm64 ys) (repeat (nzero F64) (length ys)) m r (big F64) = Ok C -> SFltb C (big F64) = true ->
    found_above (calculate F64 10 100000 (fun _ => order) (mkNFile F64 xs false) (mkNFile F64 ys false) m r) (m + 1) C = true ->
    exists (xs0 ys0 : list spec_float) order r B C, Forall fin64 xs0 /\ Forall fin64 ys0 /\ zlen xs0 = m + 1 /\ zlen ys0 = m /\ ordering m order /\
      calculate F64 10 100000 (fun _ => order) (mkNFile F64 xs0 false) (mkNFile F64 ys0 false) m r = Ok (mkFound F64 0 B (m + 1)) /\
      least_cost F64 (znorm64 (zslice xs0 1 m)) (znorm64 ys0) r (m - 1) (m - 1) C /\ lt F64 C B).
  { intros m xs ys order r C -> Lx Ly Hr F Ho E2 B1 E. apply found_above_ok in E as (B & E & B2). exists xs, ys, order, r, B, C.
    pose proof (fin_list _ F) as G.
    apply Forall_app in G as (G1 & G). apply Forall_app in G as (G2 & G). apply Forall_app in G as (G3 & G4).
    split; [exact G1|]. split; [exact G2|]. split; [exact Lx|]. split; [reflexivity|]. split; [exact Ho|]. split; [exact E|]. split; [|exact B2].
    clear E. change (num F64) with spec_float in *. assert (Zt : zlen (znorm64 (zslice xs 1 (zlen ys))) = zlen ys) by (unfold znorm64; rewrite zlen_map; apply TsProofs.zslice_len; change (num F64) with spec_float in *; lia). assert (Zq : zlen (znorm64 ys) = zlen ys) by (unfold znorm64; now rewrite zlen_map).
    destruct (C50_below_best_is_optimal (znorm64 (zslice xs 1 (zlen ys))) (znorm64 ys) (repeat (nzero F64) (length ys)) r (big F64)) as (v' & E3 & H); [exact G3|exact G4|exact Hr|lia|lia| |].
    { rewrite Zt. unfold zlen. now rewrite repeat_length. }
    change (num F64) with spec_float in *. rewrite Zt in E3. rewrite E3 in E2. injection E2 as ->. rewrite Zt, Zq in H. exact (H B1 B1). }
  assert (O : forall l, NoDup l -> Forall (fun o => 0 <= o < zlen l) l -> ordering (zlen l) l) by (intros l H1 H2; split; auto).
  intros m Hm. assert (m = 3 \/ m = 4 \/ m = 5) as [->|[->| ->]] by lia.
  - apply (D 3 (map f64_ofZ [0; 0; 1; 3]) (map f64_ofZ [0; 1; 1]) [0; 1; 2] 1
      match t_dtw F64 (znorm64 (map f64_ofZ [0; 1; 3])) (znorm64 (map f64_ofZ [0; 1; 1])) (repeat (nzero F64) 3) 3 1 (big F64) with Ok x => x | _ => nzero F64 end);
      [reflexivity|reflexivity|lia|lia|vm_compute; reflexivity| |vm_compute; reflexivity|vm_compute; reflexivity|vm_compute; reflexivity].
    apply (O [0; 1; 2]); [repeat constructor; cbn; intuition discriminate|repeat constructor; vm_compute; intuition discriminate].
  - apply (D 4 (map f64_ofZ [0; 0; 1; 0; 0]) (map f64_ofZ [0; 1; 0; 1]) [0; 1; 2; 3] 1
      match t_dtw F64 (znorm64 (map f64_ofZ [0; 1; 0; 0])) (znorm64 (map f64_ofZ [0; 1; 0; 1])) (repeat (nzero F64) 4) 4 1 (big F64) with Ok x => x | _ => nzero F64 end);
      [reflexivity|reflexivity|lia|lia|vm_compute; reflexivity| |vm_compute; reflexivity|vm_compute; reflexivity|vm_compute; reflexivity].
    apply (O [0; 1; 2; 3]); [repeat constructor; cbn; intuition discriminate|repeat constructor; vm_compute; intuition discriminate].
  - apply (D 5 (map f64_ofZ [0; 4; 2; 4; 0; 0]) (map f64_ofZ [0; 0; 2; 0; 0]) [2; 0; 1; 3; 4] 1
      match t_dtw F64 (znorm64 (map f64_ofZ [4; 2; 4; 0; 0])) (znorm64 (map f64_ofZ [0; 0; 2; 0; 0])) (repeat (nzero F64) 5) 5 1 (big F64) with Ok x => x | _ => nzero F64 end);
      [reflexivity|reflexivity|lia|lia|vm_compute; reflexivity| |vm_compute; reflexivity|vm_compute; reflexivity|vm_compute; reflexivity].
    apply (O [2; 0; 1; 3; 4]); [repeat constructor; cbn; intuition discriminate|repeat constructor; vm_compute; intuition discriminate].
Qed.

(** The comparison given to qsort is not an order: 0.5 = 1.25 and 1.25 = 2, but 0.5 <> 2.  (C leaves qsort undefined then; with an
    implementation that still returns a permutation, the theorems above say that the search is right.) *)
Theorem C56_comparison_witness : exists x y z : spec_float, fin64 x /\ fin64 y /\ fin64 z /\
  index_diff F64 x y = Ok 0 /\ index_diff F64 y z = Ok 0 /\ index_diff F64 x z = Ok 1.
Proof.
  exists (ndiv F64 (f64_ofZ 2) (f64_ofZ 4)), (ndiv F64 (f64_ofZ 5) (f64_ofZ 4)), (f64_ofZ 2). repeat split; vm_compute; reflexivity.
Qed.

(** The theorems apply: a query of six values, data that holds a copy at 3, any qsort. *)
Definition in_place (l : list rx) : list Z := map Z.of_nat (seq 0 (length l)).
Lemma in_place_ordering (l : list rx) : ordering (zlen l) (in_place l).
Proof.
  unfold in_place. split; [unfold zlen; rewrite map_length, seq_length; reflexivity|]. split.
  - apply FinFun.Injective_map_NoDup; [intros x y; lia|apply seq_NoDup].
  - apply Forall_map, Forall_forall. intros x Hx. apply in_seq in Hx. unfold zlen. lia.
Qed.
Example C56_case : exists loc, calculate RX 30 100000 in_place (clean [7; 7; 7; 1; 3; 1; 5; 1; 7; 9; 9]%R) (clean [0; 1; 0; 2; 0; 3]%R) 6 1 = Ok (mkFound RX loc (Fin 0) 11) /\ 0 <= loc <= 3.
Proof.
  apply (C56_finds_copy 30 100000 in_place [7; 7; 7; 1; 3; 1; 5; 1; 7; 9; 9]%R [0; 1; 0; 2; 0; 3]%R [] false 1 3 2 1); try (cbn; lia); try lra.
  - exists 0%R, 1%R. cbn. repeat split; auto.
  - apply in_place_ordering.
  - cbn. repeat (apply (f_equal2 cons); [lra|]). reflexivity.
Qed.
