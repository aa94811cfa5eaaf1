(** * The bounds of the UCR suite in exact arithmetic. *)
From Coq Require Import ZArith Bool Reals Lra Lia.
From Coq Require Import List.
From Verif Require TsProofs GroupProofs DataProofs SessionIndep.
From Verif Require Import Outcome Num RX Lemire Distance Laws RXLaws Spec DtwProofs Numeric Metric Kim Trillion TrillionSpec TrillionProofs.
Import ListNotations.
Open Scope Z_scope.

Lemma zget_rx (l : list rx) i : 0 <= i < zlen l -> zget l i = Ok (at_ RX l i).
Proof. intros. now apply (zget_nth l i). Qed.
Lemma at_zget (l : list rx) i x : zget l i = Ok x -> at_ RX l i = x.
Proof. intros H. pose proof (zget_inv _ _ _ H) as (R & _). rewrite (zget_rx l i R) in H. congruence. Qed.

(** ** Cells of a path *)
Lemma path_rows r i j p : warp_path r i j p -> forall x, 0 <= x <= i -> exists y, In (x, y) p.
Proof.
  induction 1 as [|i j p i' j' Hp IH Hs Hb]; intros x Hx.
  - exists 0. left. f_equal; lia.
  - destruct (Z_le_gt_dec x i) as [H|H].
    + destruct (IH x ltac:(lia)) as (y & A). exists y. apply in_or_app; auto.
    + exists j'. apply in_or_app; right; left. f_equal. destruct Hs as [(-> & ->)|[(-> & ->)|(-> & ->)]]; lia.
Qed.
Lemma path_cols r i j p : warp_path r i j p -> forall y, 0 <= y <= j -> exists x, In (x, y) p.
Proof.
  induction 1 as [|i j p i' j' Hp IH Hs Hb]; intros x Hx.
  - exists 0. left. f_equal; lia.
  - destruct (Z_le_gt_dec x j) as [H|H].
    + destruct (IH x ltac:(lia)) as (y & A). exists y. apply in_or_app; auto.
    + exists i'. apply in_or_app; right; left. f_equal. destruct Hs as [(-> & ->)|[(-> & ->)|(-> & ->)]]; lia.
Qed.
Lemma path_band r i j p : 0 <= r -> warp_path r i j p -> forall x y, In (x, y) p -> Z.abs (x - y) <= r.
Proof.
  intros Hr. induction 1 as [|i j p i' j' Hp IH Hs Hb]; intros x y H.
  - destruct H as [E|[]]. inversion E; subst. lia.
  - apply in_app_or in H as [H|[E|[]]]; auto. inversion E; subst. auto.
Qed.
Lemma path_split r i j p : warp_path r i j p -> forall x, 0 <= x <= i -> exists y p1 p2, p = p1 ++ p2 /\ warp_path r x y p1.
Proof.
  induction 1 as [|i j p i' j' Hp IH Hs Hb]; intros x Hx.
  - exists 0, [(0, 0)], []. split; auto. replace x with 0 by lia. constructor.
  - destruct (Z_le_gt_dec x i) as [H|H].
    + destruct (IH x ltac:(lia)) as (y & p1 & p2 & -> & A). exists y, p1, (p2 ++ [(i', j')]). split; auto. now rewrite app_assoc.
    + exists j', (p ++ [(i', j')]), []. split; [now rewrite app_nil_r|]. replace x with i' by (destruct Hs as [(-> & ->)|[(-> & ->)|(-> & ->)]]; lia).
      econstructor; eauto.
Qed.

Open Scope R_scope.
Fixpoint sumd (D : Z -> R) (X : list Z) : R := match X with [] => 0 | x :: X => D x + sumd D X end.
Lemma sumd_app D X X' : sumd D (X ++ X') = sumd D X + sumd D X'.
Proof. induction X; cbn; lra. Qed.
Lemma sumf_filter g f p : (forall c, 0 <= g c) -> sumf g (filter f p) <= sumf g p.
Proof. intros H. induction p as [|c p IH]; cbn; [lra|]. specialize (H c). destruct (f c); cbn; lra. Qed.

(** A bound per row (column) sums up over distinct rows (columns). *)
Section Pick.
Context (g : Z * Z -> R) (D : Z -> R) (pr : Z * Z -> Z).
Hypothesis Hg : forall c, 0 <= g c.
Lemma pick_le p X : NoDup X -> (forall x, In x X -> exists c, In c p /\ pr c = x) -> (forall c, In c p -> D (pr c) <= g c) ->
  sumd D X <= sumf g p.
Proof.
  intros Hn Hex Hd.
  assert (exists qs, map pr qs = X /\ incl qs p) as (qs & Hm & Hi).
  { clear Hn. induction X as [|x X IH]; [exists []; split; auto; intros ? []|].
    destruct IH as (qs & H1 & H2); [intros; apply Hex; now right|]. destruct (Hex x (or_introl eq_refl)) as (c & Hc & E).
    exists (c :: qs). cbn. split; [congruence|]. intros z [<-|Hz]; auto. }
  apply Rle_trans with (sumf g qs).
  - rewrite <- Hm. clear Hm Hn. induction qs as [|c qs IH]; cbn; [lra|].
    assert (D (pr c) <= g c) by (apply Hd, Hi; now left). assert (sumd D (map pr qs) <= sumf g qs) by (apply IH; intros z Hz; apply Hi; now right). lra.
  - apply sumf_incl; auto. rewrite <- Hm in Hn. now apply NoDup_map_inv in Hn.
Qed.
End Pick.

(** ** k, k+1, ..., m-1 *)
Definition zup (k m : Z) : list Z := map (fun i => (k + Z.of_nat i)%Z) (seq 0 (Z.to_nat (m - k))).
Lemma zup_cons k m : (k < m)%Z -> zup k m = k :: zup (k + 1) m.
Proof.
  intros. unfold zup. replace (Z.to_nat (m - k)) with (S (Z.to_nat (m - (k + 1)))) by lia. cbn [seq map]. f_equal; [lia|].
  rewrite <- seq_shift, map_map. apply map_ext. intros; lia.
Qed.
Lemma zup_nil k m : (m <= k)%Z -> zup k m = [].
Proof. intros. unfold zup. now replace (Z.to_nat (m - k)) with 0%nat by lia. Qed.
Lemma zup_in k m x : In x (zup k m) <-> (k <= x < m)%Z.
Proof.
  unfold zup. rewrite in_map_iff. split.
  - intros (i & <- & H). apply in_seq in H. lia.
  - intros H. exists (Z.to_nat (x - k)). split; [lia|]. apply in_seq. lia.
Qed.
Lemma zup_nodup k m : NoDup (zup k m).
Proof. unfold zup. apply FinFun.Injective_map_NoDup; [|apply seq_NoDup]. intros x y. lia. Qed.

(** ** Distance of a point to an interval *)
Definition gap (lo hi x : R) : R := if Rltb hi x then sq (x - hi) else if Rltb x lo then sq (x - lo) else 0.
Lemma gap_le lo hi x y : lo <= y <= hi -> gap lo hi x <= sq (x - y).
Proof.
  intros H. unfold gap, Rltb. destruct (Rlt_dec hi x); [unfold sq; nra|]. destruct (Rlt_dec x lo); [unfold sq; nra|]. apply sq_pos.
Qed.
Lemma gap_pos lo hi x : 0 <= gap lo hi x.
Proof. unfold gap. destruct Rltb; [apply sq_pos|]. destruct Rltb; [apply sq_pos|lra]. Qed.

Lemma sqd_rx x y : sqd RX (Fin x) (Fin y) = Fin (sq (x - y)).
Proof. reflexivity. Qed.
Lemma tmin_rx x y : tmin RX (Fin x) (Fin y) = Fin (Rmin x y).
Proof. unfold tmin; cbn. unfold Rltb, Rmin. destruct (Rlt_dec x y), (Rle_dec x y); try reflexivity; f_equal; lra. Qed.
Lemma le_rx x y : le RX (Fin x) (Fin y) <-> x <= y.
Proof. unfold le. cbn. unfold Rltb. destruct (Rlt_dec y x); split; intros; try lra; try discriminate; auto. Qed.
Lemma znorm_rx m s x : s <> 0 -> znorm RX (Fin m) (Fin s) (Fin x) = Fin ((x - m) / s).
Proof. intros H. unfold znorm. cbn. destruct (Req_EM_T s 0); [contradiction|]. reflexivity. Qed.

(** ** The cumulative bound *)
Lemma suffix_ok (D : Z -> R) (d cb : list rx) (m : Z) : (1 <= m)%Z -> zlen d = m -> zlen cb = m ->
  (forall x, (0 <= x < m)%Z -> at_ RX d x = Fin (D x)) ->
  Post (t_suffix RX d cb m) (fun cum => zlen cum = m /\ forall k, (0 <= k < m)%Z -> at_ RX cum k = Fin (sumd D (zup k m))).
Proof.
  intros Hm Hd Hcb HD. unfold t_suffix. change (num RX) with rx in *. rewrite (zget_rx d (m - 1)) by lia. cbn [bind]. rewrite HD by lia.
  pose proof (zset_Ok cb (m - 1) (Fin (D (m - 1)%Z)) ltac:(lia)) as E. rewrite E. cbn [bind]. set (c0 := list_set cb _ _) in *. clearbody c0.
  pose proof (zset_len _ _ _ _ E) as L0. change (num RX) with rx in *.
  eapply Post_conseq; [apply (for_rule (fun t (c : list rx) => zlen c = m /\ forall k, (m - 1 - t <= k < m)%Z -> at_ RX c k = Fin (sumd D (zup k m))))|].
  - split; [lia|]. intros k Hk. replace k with (m - 1)%Z by lia. rewrite (at_zget _ _ _ (zget_zset_eq _ _ _ _ E)).
    rewrite zup_cons, zup_nil by lia. cbn. f_equal. lra.
  - intros t c Ht (Lc & Hc). rewrite (zget_rx c) by lia. cbn [bind]. rewrite (zget_rx d) by lia. cbn [bind]. rewrite Hc, HD by lia. rewrite add_rx.
    pose proof (zset_Ok c (m - 2 - t) (Fin (sumd D (zup (m - 2 - t + 1) m) + D (m - 2 - t)%Z)) ltac:(lia)) as E2. rewrite E2. set (c2 := list_set c _ _) in *. clearbody c2.
    apply Post_Ok. pose proof (zset_len _ _ _ _ E2) as L2. change (num RX) with rx in *. split; [lia|]. intros k Hk. destruct (Z.eq_dec k (m - 2 - t)) as [->|Hne].
    + rewrite (at_zget _ _ _ (zget_zset_eq _ _ _ _ E2)). f_equal. rewrite (zup_cons (m - 2 - t)) by lia. cbn. lra.
    + rewrite <- (Hc k) by lia. apply at_zget. rewrite (zget_zset_neq _ _ k _ _ E2) by lia. apply zget_rx. lia.
  - intros c (Lc & Hc). split; auto. intros k Hk. apply Hc. lia.
Qed.

(** ** dtw with a valid cumulative bound *)
Open Scope Z_scope.
Lemma big_rx : big RX = Fin (IZR (10 ^ 20)).
Proof. reflexivity. Qed.
Lemma pos_big_rx : pos_rx (big RX).
Proof. right. exists (IZR (10 ^ 20)). split; [reflexivity|]. apply IZR_le. lia. Qed.

Section Valid.
Context (a b : list rx) (r : Z).
Hypothesis Ha : Forall dat_rx a.
Hypothesis Hb : Forall dat_rx b.
Hypothesis Hr : 0 <= r.
Hypothesis Hm : 1 <= zlen a.
Hypothesis Hlen : zlen b = zlen a.
Local Notation m := (zlen a).
Local Notation g := (fun c : Z * Z => sq (rv (at_ RX a (fst c)) - rv (at_ RX b (snd c)))).

Lemma g_pos c : (0 <= g c)%R.
Proof. apply sq_pos. Qed.
Lemma diag_path k : warp_path r (Z.of_nat k) (Z.of_nat k) (map (fun i => (Z.of_nat i, Z.of_nat i)) (seq 0 (S k))).
Proof.
  induction k as [|k IH]; [constructor|].
  rewrite seq_S, map_app. cbn [map]. replace (0 + S k)%nat with (S k) by lia. econstructor; [exact IH| |lia]. right; right. lia.
Qed.
Lemma cost_least : exists C, least_cost RX a b r (m - 1) (m - 1) (Fin C) /\ (0 <= C)%R.
Proof.
  assert (exists C, least_cost RX a b r (m - 1) (m - 1) C) as (C & H).
  { destruct (Z.eq_dec m 1) as [E|E].
    - rewrite E. eexists. apply (opt_00 RX dat_rx pos_rx rx_cost a b r Ha Hb); change (num RX) with rx in *; lia.
    - assert (exists C, dtw_cost RX a b r C) as (C & [H|(H & _)]).
      { apply (dtw_cost_total RX dat_rx pos_rx rx_cost); auto; change (num RX) with rx in *; lia. }
      + change (num RX) with rx in *. rewrite Hlen in H. eauto.
      + exfalso. change (num RX) with rx in *. rewrite Hlen in H. pose proof (diag_path (Z.to_nat (m - 1))) as P.
        replace (Z.of_nat (Z.to_nat (m - 1))) with (m - 1) in P by lia. eapply H, P. }
  destruct H as ((p & Hp & E) & M). destruct (path_cost_rx a b p Ha Hb) as (c & E2 & P2). exists c. split; [|auto].
  rewrite <- E2. split; [eauto|]. now rewrite E.
Qed.

Lemma valid_below mc i cb : 0 <= i -> i + r < m - 1 -> pos_rx mc -> (forall j p, j < m -> warp_path r i j p -> le RX mc (path_cost RX a b p)) ->
  valid_bound RX a b r cb -> forall p, warp_path r (m - 1) (m - 1) p -> le RX (nadd RX mc (at_ RX cb (i + r + 1))) (path_cost RX a b p).
Proof.
  intros Hi Hir Pmc Hmc V p Hp. destruct (path_split _ _ _ _ Hp i ltac:(lia)) as (y & p1 & p2 & -> & H1).
  pose proof (path_range r Hr _ _ _ H1) as (R1 & R2 & R3). specialize (Hmc y p1 ltac:(lia) H1).
  rewrite (path_cost_sum a b p1 Ha Hb) in Hmc. rewrite (path_cost_sum a b (p1 ++ p2) Ha Hb), sumf_app.
  assert (X : le RX (at_ RX cb (i + r + 1)) (Fin (sumf g p2))).
  { assert (Hf : forall f, (forall x y, In (x, y) p1 -> f (x, y) = false) -> (sumf g (filter f (p1 ++ p2)) <= sumf g p2)%R).
    { intros f Hf. replace (filter f (p1 ++ p2)) with (filter f p2); [apply sumf_filter, g_pos|]. clear - Hf. induction p1 as [|(u, v) p1 IH]; auto. cbn.
      rewrite (Hf u v) by now left. apply IH. intros; apply Hf; now right. }
    unfold valid_bound in V. change (num RX) with rx in *. rewrite Hlen in V. destruct (path_cells _ _ _ _ H1) as (_ & _ & C1).
    destruct V as [V|V]; specialize (V (i + r + 1) _ ltac:(lia) Hp); rewrite (path_cost_sum a b _ Ha Hb) in V.
    - unfold le in *. cbn in *. destruct (at_ RX cb (i + r + 1)); auto.
      assert (sumf g (row_part (i + r + 1) (p1 ++ p2)) <= sumf g p2)%R.
      { apply Hf. intros u v Hu. apply C1 in Hu. cbn. apply Z.leb_gt. lia. }
      unfold Rltb in *. destruct (Rlt_dec _ r0) in V; [discriminate|]. destruct (Rlt_dec _ r0); auto. lra.
    - unfold le in *. cbn in *. destruct (at_ RX cb (i + r + 1)); auto.
      assert (sumf g (col_part (i + r + 1) (p1 ++ p2)) <= sumf g p2)%R.
      { apply Hf. intros u v Hu. apply C1 in Hu. cbn. apply Z.leb_gt. lia. }
      unfold Rltb in *. destruct (Rlt_dec _ r0) in V; [discriminate|]. destruct (Rlt_dec _ r0); auto. lra. }
  unfold le in *. cbn in *. destruct Pmc as [->|(x & -> & Px)]; [discriminate|]. destruct (at_ RX cb (i + r + 1)); cbn; auto.
  unfold Rltb in *. destruct (Rlt_dec _ x) in Hmc; [discriminate|]. destruct (Rlt_dec _ r0) in X; [discriminate|]. destruct (Rlt_dec _ (x + r0)); auto. lra.
Qed.

Lemma dtw_valid cb bsf C : zlen cb = m -> Forall dat_rx cb -> valid_bound RX a b r cb -> least_cost RX a b r (m - 1) (m - 1) C ->
  exists v, t_dtw RX a b cb m r bsf = Ok v /\ v <> NaN /\ le RX v C /\ (lt RX v bsf -> lt RX v (big RX) -> v = C).
Proof.
  intros Hcb Dcb V ((p & Hp & <-) & M).
  destruct (Post_inv _ _ (dtw_ok RX dat_rx pos_rx rx_cost pos_big_rx a b r Ha Hb Hr Hm Hlen cb bsf Hcb)) as (v & E & H). exists v. split; auto. clear E.
  destruct H as [(P & H1 & H2)|(i & mc & Hi & Hir & (P & B) & -> & Hbsf)].
  - split; [destruct P as [->|(? & -> & _)]; discriminate|]. split; [now apply H1|]. intros _ Hb'. destruct (H2 Hb') as (p' & Hp' & <-).
    apply (c_antisym _ _ _ rx_cost); [| |apply H1|apply M]; auto.
    destruct (path_cost_rx a b p Ha Hb) as (c & -> & Pc). right; eauto.
  - split; [destruct (at_rx cb (i + r + 1) Dcb) as (x & ->), P as [->|(? & -> & _)]; discriminate|]. split; [apply valid_below; auto|]. intros Hl. exfalso. unfold lt in Hl. cbn in *. unfold rx_leb in Hbsf. destruct (rx_add mc (at_ RX cb (i + r + 1))), bsf; try discriminate; cbn in *.
    unfold Rltb, Reqb in *. destruct (Rlt_dec r0 r1); [|discriminate]. destruct (Rlt_dec r1 r0); cbn in *; try lra. destruct (Req_EM_T r1 r0); [lra|discriminate].
Qed.
End Valid.

(** ** Filling cb in the order of the sorted query *)
Lemma ordering_all m order x : ordering m order -> 0 <= x < m -> In x order.
Proof.
  intros (Hl & Hn & Hf) Hx. apply (NoDup_length_incl Hn (l' := zup 0 m)).
  - unfold zup, zlen in *. rewrite map_length, seq_length. lia.
  - intros z Hz. rewrite Forall_forall in Hf. apply zup_in. auto.
  - apply zup_in. lia.
Qed.
Lemma zslice0_snoc {A} (l : list A) k x : 0 <= k -> zget l k = Ok x -> zslice l 0 (k + 1) = zslice l 0 k ++ [x].
Proof. intros. now apply DataProofs.zslice_snoc. Qed.
Lemma zslice0_in {A} (l : list A) k x : In x (zslice l 0 k) -> In x l.
Proof. apply GroupProofs.in_slice. Qed.
Lemma zslice0_nodup {A} (l : list A) k : NoDup l -> NoDup (zslice l 0 k).
Proof.
  unfold zslice. cbn. generalize (Z.to_nat k). intros n H. revert n. induction H as [|x l Hx H IH]; intros [|n]; cbn; constructor; auto.
  intros Hi. apply Hx. revert Hi. clear. revert n. induction l as [|y l IH]; intros [|n]; cbn; try tauto. intros [->|H]; eauto.
Qed.

Lemma fill_ok (D : Z -> R) m order bsf (body : Z -> rx * list rx -> outcome (ctl (rx * list rx))) (cb : list rx) :
  0 <= m -> ordering m order -> zlen cb = m ->
  (forall i o lb cb, zget order i = Ok o -> 0 <= o < m -> zlen cb = m ->
     body i (Fin lb, cb) = if negb (nltb RX (Fin lb) bsf) then Ok (Break (Fin lb, cb)) else cb' <- zset cb o (Fin (D o));; Ok (Next (Fin (lb + D o)%R, cb'))) ->
  Post (forb 0 m body (Fin 0, cb)) (fun s => zlen (snd s) = m /\ exists X, NoDup X /\ (forall x, In x X -> 0 <= x < m) /\ fst s = Fin (sumd D X) /\
    (lt RX (fst s) bsf -> forall x, 0 <= x < m -> at_ RX (snd s) x = Fin (D x))).
Proof.
  intros Hm Ho Hcb Hbody. pose proof Ho as (Hlo & Hn & Hf). rewrite Forall_forall in Hf.
  eapply Post_conseq; [apply (forb_rule
    (fun i (s : rx * list rx) => zlen (snd s) = m /\ fst s = Fin (sumd D (zslice order 0 i)) /\ forall x, In x (zslice order 0 i) -> at_ RX (snd s) x = Fin (D x))
    (fun s : rx * list rx => zlen (snd s) = m /\ (exists i, fst s = Fin (sumd D (zslice order 0 i))) /\ nltb RX (fst s) bsf = false))|].
  - split; auto. split; auto. intros x [].
  - intros i (lb, c) Hi (H1 & H2 & H3). cbn [fst snd] in *. subst lb. destruct (zget_Ok order i ltac:(lia)) as (o & Eo).
    assert (Ho' : 0 <= o < m). { apply Hf. apply zget_inv in Eo as (_ & Eo). eapply nth_error_In, Eo. }
    rewrite (Hbody i o _ c Eo Ho' H1). destruct (nltb RX (Fin (sumd D (zslice order 0 i))) bsf) eqn:El; cbn [negb].
    + pose proof (zset_Ok c o (Fin (D o)) ltac:(lia)) as E. rewrite E. set (c' := list_set c _ _) in *. clearbody c'. cbn [bind Post wp]. cbn [fst snd].
      pose proof (zset_len _ _ _ _ E) as L. split; [lia|]. rewrite (zslice0_snoc order i o) by (auto; lia). split.
      * f_equal. rewrite sumd_app. cbn. lra.
      * intros x Hx. apply in_app_or in Hx as [Hx|[<-|[]]]; [|exact (at_zget _ _ _ (zget_zset_eq _ _ _ _ E))].
        destruct (Z.eq_dec x o) as [->|Hne]; [exact (at_zget _ _ _ (zget_zset_eq _ _ _ _ E))|].
        rewrite <- (H3 x Hx). apply at_zget. rewrite (zget_zset_neq _ _ x _ _ E) by auto. apply zget_rx. apply zslice0_in in Hx. rewrite H1. now apply Hf.
    + cbn. split; auto. split; [eauto|]. auto.
  - intros (lb, c) H. cbn [fst snd] in *. assert (exists i, lb = Fin (sumd D (zslice order 0 i))) as (i & E). { destruct H as [(_ & -> & _)|(_ & H & _)]; eauto. }
    split; [destruct H as [(H & _)|(H & _)]; auto|]. exists (zslice order 0 i). split; [now apply zslice0_nodup|]. split; [intros x Hx; apply Hf; eapply zslice0_in, Hx|].
    split; auto. intros Hlt x Hx. destruct H as [(H1 & H2 & H3)|(_ & _ & H)]; [|unfold lt in Hlt; congruence].
    apply H3. replace (Z.max 0 m) with (zlen order) by lia. rewrite SessionIndep.zslice_all. now apply (ordering_all m).
Qed.

(** ** One window *)
Lemma at_slice (l : list rx) s n k : 0 <= s -> 0 <= k < n -> s + n <= zlen l -> at_ RX (zslice l s n) k = at_ RX l (s + k).
Proof.
  intros Hs Hk Hn. unfold at_, zslice. replace (Z.to_nat (s + k)) with (Z.to_nat s + Z.to_nat k)%nat by lia.
  assert (Hk' : (Z.to_nat k < Z.to_nat n)%nat) by lia. revert Hk'. generalize (Z.to_nat s) (Z.to_nat k) (Z.to_nat n). clear. intros s k n H.
  revert l. induction s as [|s IH]; intros l; cbn.
  - revert k n H. induction l as [|x l IH]; intros k n H; [destruct n, k; auto|]. destruct n; [lia|]. destruct k; cbn; auto. apply IH. lia.
  - destruct l; cbn; [destruct n, k; auto|]. apply IH.
Qed.

Section Win.
Context (t q : list rx) (j m r : Z) (mean s : R).
Hypothesis Ht : Forall dat_rx t.
Hypothesis Hq : Forall dat_rx q.
Hypothesis Hj : 0 <= j.
Hypothesis Hjm : j + m <= zlen t.
Hypothesis Hqm : zlen q = m.
Hypothesis Hm : 1 <= m.
Hypothesis Hr : 0 <= r.
Hypothesis Hs : (0 < s)%R.
Local Notation a := (z_window RX t j m (Fin mean) (Fin s)).
Local Notation nz x := ((x - mean) / s)%R.

Lemma win_len : @zlen rx a = m.
Proof. change (@zlen (num RX) a = m). unfold z_window. rewrite zlen_map. apply TsProofs.zslice_len; change (num RX) with rx; lia. Qed.
Lemma win_at k : 0 <= k < m -> at_ RX a k = znorm RX (Fin mean) (Fin s) (at_ RX t (j + k)).
Proof.
  intros Hk. rewrite <- (at_slice t j m k) by lia. unfold z_window. apply at_zget.
  assert (Hl : zlen (zslice t j m) = m) by (apply TsProofs.zslice_len; lia).
  pose proof (zget_rx (zslice t j m) k ltac:(lia)) as E. revert E. unfold zget. destruct (k <? 0); [discriminate|]. rewrite nth_error_map.
  change (num RX) with rx. destruct (nth_error (zslice t j m) (Z.to_nat k)); [|discriminate]. cbn. intros E. injection E as ->. reflexivity.
Qed.
Lemma win_rv k : 0 <= k < m -> at_ RX a k = Fin (nz (rv (at_ RX t (j + k)))).
Proof. intros Hk. rewrite win_at by auto. rewrite (rv_Fin (at_ RX t (j + k))) at 1 by now apply at_rx. apply znorm_rx. lra. Qed.
Lemma win_dat : Forall dat_rx a.
Proof.
  unfold z_window. apply Forall_map. apply Forall_forall. intros x Hx. apply GroupProofs.in_slice in Hx. rewrite Forall_forall in Ht. destruct (Ht x Hx) as (y & ->).
  exists (nz y). apply znorm_rx. lra.
Qed.
Lemma win_q k : at_ RX q k = Fin (rv (at_ RX q k)).
Proof. apply rv_Fin. now apply at_rx. Qed.
Local Notation g := (fun c : Z * Z => sq (rv (at_ RX a (fst c)) - rv (at_ RX q (snd c)))).
Lemma gw_pos c : (0 <= g c)%R.
Proof. apply sq_pos. Qed.

(** A bound per row or column gives a bound on the cost and a valid cumulative bound. *)
Lemma rows_bound D X p : (forall x y, 0 <= x < m -> 0 <= y < m -> Z.abs (x - y) <= r -> (D x <= g (x, y))%R) ->
  NoDup X -> (forall x, In x X -> 0 <= x < m) -> warp_path r (m - 1) (m - 1) p ->
  (sumd D X <= sumf g p)%R.
Proof.
  intros HD Hn Hx Hp. pose proof (path_cells _ _ _ _ Hp) as (_ & _ & Hc). apply (pick_le g D fst gw_pos); auto.
  - intros x Hi. destruct (path_rows _ _ _ _ Hp x) as (y & Hy); [specialize (Hx x Hi); lia|]. exists (x, y). auto.
  - intros (x, y) Hi. pose proof (path_band r _ _ _ Hr Hp x y Hi). apply Hc in Hi. apply HD; cbn; lia.
Qed.
Lemma cols_bound D X p : (forall x y, 0 <= x < m -> 0 <= y < m -> Z.abs (x - y) <= r -> (D y <= g (x, y))%R) ->
  NoDup X -> (forall x, In x X -> 0 <= x < m) -> warp_path r (m - 1) (m - 1) p ->
  (sumd D X <= sumf g p)%R.
Proof.
  intros HD Hn Hx Hp. pose proof (path_cells _ _ _ _ Hp) as (_ & _ & Hc). apply (pick_le g D snd gw_pos); auto.
  - intros x Hi. destruct (path_cols _ _ _ _ Hp x) as (y & Hy); [specialize (Hx x Hi); lia|]. exists (y, x). auto.
  - intros (x, y) Hi. pose proof (path_band r _ _ _ Hr Hp x y Hi). apply Hc in Hi. apply HD; cbn; lia.
Qed.
Lemma rows_valid D cum : (forall x y, 0 <= x < m -> 0 <= y < m -> Z.abs (x - y) <= r -> (D x <= g (x, y))%R) ->
  (forall k, 0 <= k < m -> at_ RX cum k = Fin (sumd D (zup k m))) -> valid_bound RX a q r cum.
Proof.
  intros HD Hc. left. change (@zlen (num RX)) with (@zlen rx). rewrite win_len, Hqm. intros k p Hk Hp. rewrite Hc by auto. rewrite (path_cost_sum a q _ win_dat Hq). apply le_rx.
  pose proof (path_cells _ _ _ _ Hp) as (_ & _ & Hc'). apply (pick_le g D fst gw_pos); [apply zup_nodup| |].
  - intros x Hi. apply zup_in in Hi. destruct (path_rows _ _ _ _ Hp x) as (y & Hy); [lia|]. exists (x, y). split; auto. apply filter_In. split; auto. cbn. apply Z.leb_le. lia.
  - intros (x, y) Hi. apply filter_In in Hi as (Hi & _). pose proof (path_band r _ _ _ Hr Hp x y Hi). apply Hc' in Hi. apply HD; cbn; lia.
Qed.
Lemma cols_valid D cum : (forall x y, 0 <= x < m -> 0 <= y < m -> Z.abs (x - y) <= r -> (D y <= g (x, y))%R) ->
  (forall k, 0 <= k < m -> at_ RX cum k = Fin (sumd D (zup k m))) -> valid_bound RX a q r cum.
Proof.
  intros HD Hc. right. change (@zlen (num RX)) with (@zlen rx). rewrite win_len, Hqm. intros k p Hk Hp. rewrite Hc by auto. rewrite (path_cost_sum a q _ win_dat Hq). apply le_rx.
  pose proof (path_cells _ _ _ _ Hp) as (_ & _ & Hc'). apply (pick_le g D snd gw_pos); [apply zup_nodup| |].
  - intros x Hi. apply zup_in in Hi. destruct (path_cols _ _ _ _ Hp x) as (y & Hy); [lia|]. exists (y, x). split; auto. apply filter_In. split; auto. cbn. apply Z.leb_le. lia.
  - intros (x, y) Hi. apply filter_In in Hi as (Hi & _). pose proof (path_band r _ _ _ Hr Hp x y Hi). apply Hc' in Hi. apply HD; cbn; lia.
Qed.

Lemma sums_dat D (cum : list rx) : zlen cum = m -> (forall k, 0 <= k < m -> at_ RX cum k = Fin (sumd D (zup k m))) -> Forall dat_rx cum.
Proof.
  intros L H. apply Forall_forall. intros x Hx. apply In_nth_error in Hx as (n & Hn). exists (sumd D (zup (Z.of_nat n) m)). rewrite <- H.
  - symmetry. apply at_zget. unfold zget. destruct (Z.ltb_spec (Z.of_nat n) 0); [lia|]. now rewrite Nat2Z.id, Hn.
  - assert (n < length cum)%nat by (apply nth_error_Some; congruence). unfold zlen in L. lia.
Qed.
Definition bounds (lb : rx) (cb' cb0 : list rx) (bsf : rx) : Prop :=
  zlen cb' = m /\ (exists x, lb = Fin x) /\ (forall p, warp_path r (m - 1) (m - 1) p -> le RX lb (path_cost RX a q p)) /\
  (lt RX lb bsf -> zlen cb0 = m -> exists cum, t_suffix RX cb' cb0 m = Ok cum /\ zlen cum = m /\ Forall dat_rx cum /\ valid_bound RX a q r cum).

Section Keogh.
Context (order : list Z) (cb : list rx).
Hypothesis Ho : ordering m order.
Hypothesis Hcb : zlen cb = m.

Lemma keogh_ok l u lo uo bsf cb0 : Forall dat_rx l -> Forall dat_rx u -> encloses RX m r q l u ->
  sorted_copy RX order l lo -> sorted_copy RX order u uo ->
  Post (t_keogh RX order t uo lo cb j m (Fin mean) (Fin s) bsf) (fun res => bounds (fst res) (snd res) cb0 bsf).
Proof.
  intros Hl Hu (_ & Ll & Lu & He) (Zl & Sl) (Zu & Su). unfold t_keogh.
  set (D := fun x => gap (rv (at_ RX l x)) (rv (at_ RX u x)) (rv (at_ RX a x))).
  assert (HD : forall x y, 0 <= x < m -> 0 <= y < m -> Z.abs (x - y) <= r -> (D x <= g (x, y))%R).
  { intros x y Hx Hy Hb. destruct (He x y Hx Hy Hb) as (H1 & H2). rewrite (win_q y), (rv_Fin (at_ RX l x)) in H1 by now apply at_rx.
    rewrite (win_q y), (rv_Fin (at_ RX u x)) in H2 by now apply at_rx. apply le_rx in H1, H2. apply gap_le. auto. }
  eapply Post_conseq; [apply (fill_ok D m order bsf _ cb ltac:(lia) Ho Hcb)|].
  - intros i o lb c Eo Ro Lc. unfold t_keogh_step. destruct (negb _); auto. change (num RX) with rx in *. rewrite Eo. cbn [bind].
    rewrite (zget_rx t (o + j)) by lia. cbn [bind]. replace (o + j) with (j + o) by lia. rewrite <- win_at by lia.
    rewrite (Su i o Eo), (Sl i o Eo). rewrite (zget_rx u o), (zget_rx l o) by lia. cbn [bind].
    rewrite (rv_Fin (at_ RX u o)), (rv_Fin (at_ RX l o)), (rv_Fin (at_ RX a o)) by (apply at_rx; auto using win_dat).
    replace (if nltb RX _ _ then _ else _) with (@Ok rx (Fin (D o))); [reflexivity|]. unfold D, gap. cbn [nltb RX rx_ltb]. rewrite !sqd_rx. destruct Rltb; auto. cbn. destruct Rltb; auto.
  - intros (lb, cb') (L & X & Hn & Hx & E & H). cbn [fst snd] in *. subst lb. split; auto. split; [eauto|]. split.
    + intros p Hp. rewrite (path_cost_sum a q _ win_dat Hq). apply le_rx. now apply rows_bound.
    + intros Hlt L0. destruct (Post_inv _ _ (suffix_ok D cb' cb0 m Hm L L0 (H Hlt))) as (cum & E & L' & Hc). exists cum. split; auto. split; auto. split; [eapply sums_dat; eauto|].
      eapply rows_valid; eauto.
Qed.
Lemma keogh2_ok l u qo bsf cb0 : Forall dat_rx l -> Forall dat_rx u -> encloses RX m r (zslice t j m) l u ->
  sorted_copy RX order q qo ->
  Post (t_keogh2 RX order qo cb l u m (Fin mean) (Fin s) bsf) (fun res => bounds (fst res) (snd res) cb0 bsf).
Proof.
  intros Hl Hu (_ & Ll & Lu & He) (Zq & Sq). unfold t_keogh2.
  set (D := fun x => gap (nz (rv (at_ RX l x))) (nz (rv (at_ RX u x))) (rv (at_ RX q x))).
  assert (HD : forall x y, 0 <= x < m -> 0 <= y < m -> Z.abs (x - y) <= r -> (D y <= g (x, y))%R).
  { intros x y Hx Hy Hb. destruct (He y x Hy Hx ltac:(lia)) as (H1 & H2). rewrite (at_slice t j m x) in H1, H2 by lia.
    rewrite (rv_Fin (at_ RX l y)), (rv_Fin (at_ RX t _)) in H1 by now apply at_rx.
    rewrite (rv_Fin (at_ RX u y)), (rv_Fin (at_ RX t _)) in H2 by now apply at_rx. apply le_rx in H1, H2.
    cbn [fst snd]. rewrite win_rv by auto. cbn [rv]. replace (sq _) with (sq (rv (at_ RX q y) - nz (rv (at_ RX t (j + x))))) by (unfold sq; ring).
    apply gap_le. assert (0 < / s)%R by now apply Rinv_0_lt_compat. unfold Rdiv. split; apply Rmult_le_compat_r; lra. }
  eapply Post_conseq; [apply (fill_ok D m order bsf _ cb ltac:(lia) Ho Hcb)|].
  - intros i o lb c Eo Ro Lc. unfold t_keogh2_step. destruct (negb _); auto. change (num RX) with rx in *. rewrite Eo. cbn [bind].
    rewrite (zget_rx u o), (zget_rx l o) by lia. cbn [bind]. rewrite (Sq i o Eo), (zget_rx q o) by lia. cbn [bind].
    rewrite (rv_Fin (at_ RX u o)), (rv_Fin (at_ RX l o)), (rv_Fin (at_ RX q o)) by (apply at_rx; auto). rewrite !znorm_rx by lra.
    replace (if nltb RX _ _ then _ else _) with (Fin (D o)); [reflexivity|]. unfold D, gap. cbn [nltb RX rx_ltb]. rewrite !sqd_rx. destruct Rltb; auto. destruct Rltb; auto.
  - intros (lb, cb') (L & X & Hn & Hx & E & H). cbn [fst snd] in *. subst lb. split; auto. split; [eauto|]. split.
    + intros p Hp. rewrite (path_cost_sum a q _ win_dat Hq). apply le_rx. now apply cols_bound.
    + intros Hlt L0. destruct (Post_inv _ _ (suffix_ok D cb' cb0 m Hm L L0 (H Hlt))) as (cum & E & L' & Hc). exists cum. split; auto. split; auto. split; [eapply sums_dat; eauto|].
      eapply cols_valid; eauto.
Qed.
End Keogh.

Ltac rmin := first [apply Rle_refl | apply Rmin_le_l'; rmin | apply Rmin_le_r'; rmin].
Ltac rmins := repeat apply Rmin_glb; rmin.
Lemma kim_ok bsf : 6 <= m -> exists x, t_kim RX t q j m (Fin mean) (Fin s) bsf = Ok (Fin x) /\
  forall p, warp_path r (m - 1) (m - 1) p -> (x <= sumf g p)%R.
Proof.
  intros H6.
  assert (K : forall x, (x <= kim6 a q)%R -> forall p, warp_path r (m - 1) (m - 1) p -> (x <= sumf g p)%R).
  { intros x Hx p Hp. pose proof (kim_le a q r p) as K. change (num RX) with rx in K. rewrite win_len, Hqm in K. destruct (K Hp) as (K1 & _). specialize (K1 ltac:(lia)). lra. }
  unfold kim6, kim4 in K. change (@zlen (num RX)) with (@zlen rx) in K. rewrite win_len, Hqm in K.
  assert (T : forall i k, 0 <= k < m -> i = j + k -> (x <- zget t i;; Ok (znorm RX (Fin mean) (Fin s) x)) = Ok (Fin (rv (at_ RX a k)))).
  { intros i k Hk ->. change (num RX) with rx. rewrite (zget_rx t (j + k)) by lia. cbn [bind]. rewrite <- win_at by auto. rewrite <- rv_Fin; auto. apply at_rx, win_dat. }
  assert (Q : forall k, 0 <= k < m -> zget q k = Ok (Fin (rv (at_ RX q k)))).
  { intros k Hk. rewrite (zget_rx q k) by lia. now rewrite win_q at 1. }
  assert (P : forall i k, (0 <= cc a q i k)%R) by (intros; apply cc_pos).
  unfold t_kim. cbv zeta. change (num RX) with rx in *.
  rewrite (T j 0), (T (m - 1 + j) (m - 1)), (T (j + 1) 1), (T (m - 2 + j) (m - 2)), (T (j + 2) 2), (T (m - 3 + j) (m - 3)) by lia. cbn [bind].
  rewrite (Q 0), (Q 1), (Q 2), (Q (m - 1)), (Q (m - 2)), (Q (m - 3)) by lia. cbn [bind]. rewrite !sqd_rx.
  repeat match goal with |- context [sq (rv (at_ RX a ?i) - rv (at_ RX q ?k))] => change (sq (rv (at_ RX a i) - rv (at_ RX q k))) with (cc a q i k) end.
  rewrite !tmin_rx, !add_rx.
  assert (G : forall x y, (0 <= x -> 0 <= y -> 0 <= Rmin x y)%R) by (intros; apply Rmin_glb; auto).
  match type of K with forall x, (x <= ?A + ?B + ?c1 + ?c2 + ?c3 + ?c4)%R -> _ =>
    assert (0 <= c1 /\ 0 <= c2 /\ 0 <= c3 /\ 0 <= c4)%R by (repeat split; repeat apply G; apply P) end.
  match goal with |- context [Ok (Fin (?A + ?B + ?d1 + ?d2 + ?d3 + ?d4))] =>
    match type of K with forall x, (x <= ?A' + ?B' + ?c1 + ?c2 + ?c3 + ?c4)%R -> _ =>
      assert (d1 <= c1)%R by rmins; assert (d2 <= c2)%R by rmins; assert (d3 <= c3)%R by rmins; assert (d4 <= c4)%R by rmins end end.
  repeat (destruct (nleb RX bsf _); [eexists; split; [reflexivity|]; apply K; lra|]).
  eexists; split; [reflexivity|]. apply K. lra.
Qed.

(** [tz] after the loop is the normalised window. *)
Lemma tz_ok (tz : list rx) : zlen tz = m ->
  for_ 0 m (fun k tz => x <- zget t (k + j);; zset tz k (znorm RX (Fin mean) (Fin s) x)) tz = Ok a.
Proof.
  intros Hl. match goal with |- ?o = _ => assert (P : Post o (fun z : list rx => zlen z = m /\ forall k, 0 <= k < m -> at_ RX z k = at_ RX a k)) end.
  - eapply Post_conseq; [apply (for_rule (fun i (z : list rx) => zlen z = m /\ forall k, 0 <= k < i -> at_ RX z k = at_ RX a k))|].
    + split; auto. lia.
    + intros i z Hi (L & H). change (num RX) with rx. rewrite (zget_rx t (i + j)) by lia. cbn [bind]. replace (i + j) with (j + i) by lia. rewrite <- win_at by lia.
      pose proof (zset_Ok z i (at_ RX a i) ltac:(lia)) as E. change (num RX) with rx in E. rewrite E. set (c' := list_set z _ _) in *. clearbody c'.
      pose proof (zset_len _ _ _ _ E) as L'. apply Post_Ok. split; [lia|]. intros k Hk. destruct (Z.eq_dec k i) as [->|Hne]; [exact (at_zget _ _ _ (zget_zset_eq _ _ _ _ E))|].
      rewrite <- (H k) by lia. apply at_zget. rewrite (zget_zset_neq _ _ k _ _ E) by auto. apply zget_rx. lia.
    + intros z (L & H). split; auto. intros k Hk. apply H. lia.
  - destruct (Post_inv _ _ P) as (z & E & L & H). rewrite E. f_equal. pose proof win_len as W.
    change (num RX) with rx in *. apply (nth_ext z a (Fin 0) (Fin 0)); [unfold zlen in *; lia|]. intros n Hn. specialize (H (Z.of_nat n)). unfold at_ in H. rewrite Nat2Z.id in H. apply H. unfold zlen in *. lia.
Qed.

(** What one window does to the best distance so far. *)
Lemma window_ok order qo uo lo lq uq l u bsf (w : scratch RX) : 6 <= m -> pos_rx bsf -> le RX bsf (big RX) ->
  ordering m order -> sorted_copy RX order q qo -> sorted_copy RX order lq lo -> sorted_copy RX order uq uo ->
  Forall dat_rx lq -> Forall dat_rx uq -> encloses RX m r q lq uq -> Forall dat_rx l -> Forall dat_rx u -> encloses RX m r (zslice t j m) l u ->
  @zlen rx (w_cb _ w) = m -> @zlen rx (w_cb1 _ w) = m -> @zlen rx (w_cb2 _ w) = m -> @zlen rx (w_tz _ w) = m ->
  forall C, least_cost RX a q r (m - 1) (m - 1) C ->
  exists res w', t_window RX t q order qo uo lo l u j m r (Fin mean) (Fin s) bsf w = Ok (res, w') /\
    @zlen rx (w_cb _ w') = m /\ @zlen rx (w_cb1 _ w') = m /\ @zlen rx (w_cb2 _ w') = m /\ @zlen rx (w_tz _ w') = m /\
    match res with Some d => (lt RX d bsf -> d = C) /\ (lt RX C bsf -> lt RX d bsf) | None => ~ lt RX C bsf end.
Proof.
  intros H6 Pb Hbig Ho Sq Sl Su Dl Du El Dl' Du' El' Wb W1 W2 Wz C HC. pose proof HC as ((p & Hp & EC) & _).
  rewrite (path_cost_sum a q _ win_dat Hq) in EC. subst C. set (C := sumf g p) in *.
  assert (PB : forall v x y, v = Fin x -> (x <= y)%R -> nltb RX v bsf = false -> ~ lt RX (Fin y) bsf).
  { clear. intros v x y -> Hxy Hv Hl. unfold lt in Hl. cbn [nltb RX rx_ltb] in *. destruct bsf as [b| | |]; try discriminate. unfold Rltb in *. destruct (Rlt_dec x b); [discriminate|]. destruct (Rlt_dec y b); [lra|discriminate]. }
  unfold t_window. destruct (kim_ok bsf H6) as (x & -> & Hx). cbn [bind]. specialize (Hx p Hp).
  destruct (nltb RX (Fin x) bsf) eqn:B1; [|exists None, w; do 5 (split; auto); eapply PB; eauto].
  destruct (Post_inv _ _ (keogh_ok order (w_cb1 _ w) Ho W1 lq uq lo uo bsf (w_cb _ w) Dl Du El Sl Su)) as ((k1 & cb1) & -> & L1 & (x1 & E1) & H1 & V1). cbn [fst snd] in *. cbn [bind].
  specialize (H1 p Hp). rewrite (path_cost_sum a q _ win_dat Hq) in H1. subst k1. apply le_rx in H1.
  destruct (nltb RX (Fin x1) bsf) eqn:B2; [|eexists None, _; split; [reflexivity|]; cbn [w_cb w_cb1 w_cb2 w_tz]; do 4 (split; auto); eapply PB; eauto].
  cbn [w_tz w_cb2 w_cb]. pose proof (tz_ok (w_tz _ w) Wz) as TZ. change (num RX) with rx in TZ |- *. rewrite TZ. cbn [bind].
  destruct (Post_inv _ _ (keogh2_ok order (w_cb2 _ w) Ho W2 l u qo bsf (w_cb _ w) Dl' Du' El' Sq)) as ((k2 & cb2) & -> & L2 & (x2 & E2) & H2 & V2). cbn [fst snd] in *. cbn [bind].
  specialize (H2 p Hp). rewrite (path_cost_sum a q _ win_dat Hq) in H2. subst k2. apply le_rx in H2. pose proof win_len as Wl.
  destruct (nltb RX (Fin x2) bsf) eqn:B3; [|eexists None, _; split; [reflexivity|]; cbn [w_cb w_cb1 w_cb2 w_tz]; do 4 (split; auto); eapply PB; eauto].
  cbn [w_cb]. destruct (V1 B2 Wb) as (cum1 & S1 & L1' & D1 & V1'). destruct (V2 B3 Wb) as (cum2 & S2 & L2' & D2 & V2').
  assert (exists cum, (if nltb RX (Fin x2) (Fin x1) then t_suffix RX cb1 (w_cb RX w) m else t_suffix RX cb2 (w_cb RX w) m) = Ok cum /\ @zlen rx cum = m /\ Forall dat_rx cum /\ valid_bound RX a q r cum)
    as (cum & Ecum & Lc & Dc & V).
  { destruct (nltb RX (Fin x2) (Fin x1)); [exists cum1|exists cum2]; repeat split; auto. }
  change (num RX) with rx in Ecum |- *. rewrite Ecum.
  cbn [bind]. destruct (dtw_valid a q r win_dat Hq Hr ltac:(rewrite win_len; lia) ltac:(rewrite win_len; lia) cum bsf (Fin C)) as (v & Ev & Nv & H3 & H4); auto.
  { now rewrite win_len. } { rewrite win_len. exact HC. }
  rewrite win_len in Ev. rewrite Ev. cbn [bind]. eexists (Some v), _. split; [reflexivity|]. cbn [w_cb w_cb1 w_cb2 w_tz]. do 4 (split; auto).
  assert (OB : forall y, lt RX y bsf -> lt RX y (big RX)).
  { intros y Hy. rewrite big_rx in *. unfold lt, le in *. cbn [nltb RX] in *. destruct Pb as [->|(b & -> & _)]; [discriminate|]. destruct y as [y| | |]; cbn [rx_ltb] in *; try discriminate; auto.
    revert Hy Hbig. generalize (IZR (10 ^ 20)). intros z. unfold Rltb. destruct (Rlt_dec y b); [|discriminate]. destruct (Rlt_dec z b); [discriminate|]. destruct (Rlt_dec y z); auto. lra. }
  split; [auto|]. intros Hl. clear - Nv H3 Hl Pb. unfold lt, le in *. cbn [nltb RX] in *. destruct Pb as [->|(b & -> & _)]; destruct v as [v| | |]; cbn [rx_ltb] in *; try discriminate; try congruence; auto.
  unfold Rltb in *. destruct (Rlt_dec C v); [discriminate|]. destruct (Rlt_dec C b); [|discriminate]. destruct (Rlt_dec v b); auto. lra.
Qed.
End Win.
