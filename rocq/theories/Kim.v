(** * The Kim bound (Distance.cpp:138-194) in exact arithmetic. *)
From Coq Require Import ZArith Bool Reals Lra Lia.
From Coq Require Import List String.
From Verif Require Import Outcome Num RX Lemire Distance F64Base Laws F64Laws RXLaws Spec DtwProofs Numeric Metric.
Import ListNotations.
Open Scope R_scope.

Fixpoint sumf (g : Z * Z -> R) (p : list (Z * Z)) : R :=
  match p with [] => 0 | c :: p => g c + sumf g p end.
Lemma sumf_app g p q : sumf g (p ++ q) = sumf g p + sumf g q.
Proof. induction p; cbn; lra. Qed.
Lemma sumf_pos g p : (forall c, 0 <= g c) -> 0 <= sumf g p.
Proof. intros H; induction p; cbn; [lra|]. specialize (H a). lra. Qed.
Lemma sumf_incl g qs : (forall c, 0 <= g c) -> NoDup qs -> forall p, incl qs p -> sumf g qs <= sumf g p.
Proof.
  intros Hg. induction 1 as [|q qs Hn Hd IH]; intros p Hi; cbn.
  - now apply sumf_pos.
  - destruct (in_split q p (Hi q (or_introl eq_refl))) as (l1 & l2 & ->).
    assert (incl qs (l1 ++ l2)).
    { intros z Hz. specialize (Hi z (or_intror Hz)). apply in_app_or in Hi. apply in_or_app.
      destruct Hi as [Hi|[->|Hi]]; auto. contradiction. }
    specialize (IH _ H). rewrite sumf_app in *. cbn. lra.
Qed.

Lemma path_cost_sum a b p : Forall dat_rx a -> Forall dat_rx b ->
  path_cost RX a b p = Fin (sumf (fun c => sq (rv (at_ RX a (fst c)) - rv (at_ RX b (snd c)))) p).
Proof.
  intros Ha Hb. unfold path_cost. change (nzero RX) with (Fin 0).
  enough (H : forall s, fold_left (fun acc c => nadd RX acc (sqd RX (at_ RX a (fst c)) (at_ RX b (snd c)))) p (Fin s)
    = Fin (s + sumf (fun c => sq (rv (at_ RX a (fst c)) - rv (at_ RX b (snd c)))) p)).
  { rewrite H. f_equal. lra. }
  induction p as [|c p IH]; intros s; cbn [fold_left sumf]; [f_equal; lra|].
  destruct (at_rx a (fst c) Ha) as (x & Ex). destruct (at_rx b (snd c) Hb) as (y & Ey).
  rewrite Ex, Ey. cbn [sqd]. change (nadd RX (Fin s) (sqd RX (Fin x) (Fin y))) with (Fin (s + (x + - y) * (x + - y))).
  rewrite IH. f_equal. unfold sq; cbn [rv]. unfold Rminus. ring.
Qed.

Open Scope Z_scope.
Lemma path_cells r i j p : warp_path r i j p -> 0 <= i /\ 0 <= j /\
  forall x y, In (x, y) p -> 0 <= x <= i /\ 0 <= y <= j.
Proof.
  induction 1 as [|i j p i' j' Hp (Hi & Hj & IH) Hs Hb].
  - split; [lia|]. split; [lia|]. intros x y [E|[]]. inversion E; lia.
  - assert (i <= i' /\ j <= j') as (A & B) by (destruct Hs as [(-> & ->)|[(-> & ->)|(-> & ->)]]; lia).
    split; [lia|]. split; [lia|]. intros x y H. apply in_app_or in H. destruct H as [H|[E|[]]].
    + specialize (IH x y H). lia.
    + inversion E; lia.
Qed.
Lemma ring_start r i j p : warp_path r i j p -> forall t, 0 <= t <= Z.max i j ->
  exists x y, In (x, y) p /\ Z.max x y = t.
Proof.
  induction 1 as [|i j p i' j' Hp IH Hs Hb]; intros t Ht.
  - exists 0, 0. split; [now left|lia].
  - destruct (Z_le_gt_dec t (Z.max i j)) as [H|H].
    + destruct (IH t ltac:(lia)) as (x & y & A & B). exists x, y. split; auto. apply in_or_app; auto.
    + exists i', j'. split; [apply in_or_app; right; now left|].
      destruct Hs as [(-> & ->)|[(-> & ->)|(-> & ->)]]; lia.
Qed.
Lemma ring_end r i j p : warp_path r i j p -> forall I J t, i <= I -> j <= J ->
  Z.max (I - i) (J - j) <= t <= Z.max I J -> exists x y, In (x, y) p /\ Z.max (I - x) (J - y) = t.
Proof.
  induction 1 as [|i j p i' j' Hp IH Hs Hb]; intros I J t HI HJ Ht.
  - exists 0, 0. split; [now left|lia].
  - assert (i <= i' /\ j <= j') as (A & B) by (destruct Hs as [(-> & ->)|[(-> & ->)|(-> & ->)]]; lia).
    destruct (Z_le_gt_dec (Z.max (I - i) (J - j)) t) as [H|H].
    + destruct (IH I J t ltac:(lia) ltac:(lia) ltac:(lia)) as (x & y & C & D). exists x, y. split; auto. apply in_or_app; auto.
    + exists i', j'. split; [apply in_or_app; right; now left|].
      destruct Hs as [(-> & ->)|[(-> & ->)|(-> & ->)]]; lia.
Qed.

Open Scope R_scope.
Lemma smin_rx x y : smin RX (Fin x) (Fin y) = Fin (Rmin x y).
Proof.
  unfold smin; cbn. unfold Rltb, Rmin. destruct (Rlt_dec y x), (Rle_dec x y); try reflexivity; f_equal; lra.
Qed.
Lemma add_rx x y : nadd RX (Fin x) (Fin y) = Fin (x + y).
Proof. reflexivity. Qed.
Lemma inf_lt x : nltb RX (ninf RX) (Fin x) = false.
Proof. reflexivity. Qed.
Lemma inf_le x : nleb RX (ninf RX) (Fin x) = false.
Proof. reflexivity. Qed.

Section Kim.
Context (a b : list rx).
Hypothesis Ha : Forall dat_rx a.
Hypothesis Hb : Forall dat_rx b.
Local Notation m := (zlen a).
Local Notation n := (zlen b).
Definition cc (i j : Z) : R := sq (rv (at_ RX a i) - rv (at_ RX b j)).

Lemma e_Ok i j : (0 <= i < m)%Z -> (0 <= j < n)%Z ->
  (ai <- ts_at RX a i ;; bj <- ts_at RX b j ;; Ok (sqd RX ai bj)) = Ok (Fin (cc i j)).
Proof.
  intros Hi Hj. rewrite (ts_at_Ok RX a i Hi), (ts_at_Ok RX b j Hj). cbn [bind].
  unfold cc. destruct (at_rx a i Ha) as (x & ->). destruct (at_rx b j Hb) as (y & ->). reflexivity.
Qed.
Lemma cc_pos i j : 0 <= cc i j.
Proof. apply sq_pos. Qed.

Definition kim4 : R := cc 0 0 + cc (m - 1) (n - 1) + Rmin (Rmin (cc 0 1) (cc 1 1)) (cc 1 0)
  + Rmin (Rmin (cc (m - 1) (n - 2)) (cc (m - 2) (n - 2))) (cc (m - 2) (n - 1)).
Definition kim6 : R := kim4
  + Rmin (Rmin (Rmin (cc 0 2) (cc 1 2)) (Rmin (cc 2 2) (cc 2 1))) (cc 2 0)
  + Rmin (Rmin (Rmin (cc (m - 1) (n - 3)) (cc (m - 2) (n - 3))) (Rmin (cc (m - 3) (n - 3)) (cc (m - 3) (n - 2)))) (cc (m - 3) (n - 1)).

Lemma kim_value : (3 <= m)%Z -> (3 <= n)%Z ->
  kimLowerBound RX a b (ninf RX) = Ok (Fin (if Z.eqb (Z.min m n) 4 then kim4 else kim6)).
Proof.
  intros Hm Hn. unfold kimLowerBound. cbv zeta. change (@zlen (num RX)) with (@zlen rx).
  destruct (Z.eqb_spec (Z.min m n) 0) as [Q|_]; [lia|]. destruct (Z.eqb_spec (Z.min m n) 1) as [Q|_]; [lia|].
  rewrite (e_Ok 0 0), (e_Ok (m - 1) (n - 1)), (e_Ok 0 1), (e_Ok 1 1), (e_Ok 1 0), (e_Ok (m - 1) (n - 2)), (e_Ok (m - 2) (n - 2)),
    (e_Ok (m - 2) (n - 1)), (e_Ok 0 2), (e_Ok 1 2), (e_Ok 2 2), (e_Ok 2 1), (e_Ok 2 0),
    (e_Ok (m - 1) (n - 3)), (e_Ok (m - 2) (n - 3)), (e_Ok (m - 3) (n - 3)), (e_Ok (m - 3) (n - 2)), (e_Ok (m - 3) (n - 1)) by lia.
  cbn [bind]. change (nzero RX) with (Fin 0).
  rewrite !add_rx, !inf_lt, !smin_rx, !add_rx, !inf_lt, !inf_le. rewrite Rplus_0_l.
  destruct (Z.eqb_spec (Z.min m n) 4) as [Q4|Q4].
  - reflexivity.
  - rewrite ?smin_rx, ?add_rx, ?inf_lt. reflexivity.
Qed.

Lemma Rmin_le_l' x y z : x <= z -> Rmin x y <= z.
Proof. pose proof (Rmin_l x y). lra. Qed.
Lemma Rmin_le_r' x y z : y <= z -> Rmin x y <= z.
Proof. pose proof (Rmin_r x y). lra. Qed.

Local Notation g := (fun c : Z * Z => sq (rv (at_ RX a (fst c)) - rv (at_ RX b (snd c)))).
Ltac rmin := first [apply Rle_refl | apply Rmin_le_l'; rmin | apply Rmin_le_r'; rmin].

Lemma kim_le r p : warp_path r (m - 1) (n - 1) p ->
  ((3 <= Z.min m n)%Z /\ (6 <= Z.max m n)%Z -> kim6 <= sumf g p) /\
  ((4 <= Z.min m n)%Z -> kim4 <= sumf g p).
Proof.
  intros Hp. destruct (path_cells _ _ _ _ Hp) as (_ & _ & Hc).
  assert (Hg : forall c, 0 <= g c) by (intros; apply sq_pos).
  split.
  - intros (H3 & H6).
    destruct (ring_start _ _ _ _ Hp 0) as (x0 & y0 & I0 & E0); [lia|].
    destruct (ring_start _ _ _ _ Hp 1) as (x1 & y1 & I1 & E1); [lia|].
    destruct (ring_start _ _ _ _ Hp 2) as (x2 & y2 & I2 & E2); [lia|].
    destruct (ring_end _ _ _ _ Hp (m - 1) (n - 1) 0) as (x3 & y3 & I3 & E3); [lia..|].
    destruct (ring_end _ _ _ _ Hp (m - 1) (n - 1) 1) as (x4 & y4 & I4 & E4); [lia..|].
    destruct (ring_end _ _ _ _ Hp (m - 1) (n - 1) 2) as (x5 & y5 & I5 & E5); [lia..|].
    pose proof (Hc _ _ I0). pose proof (Hc _ _ I1). pose proof (Hc _ _ I2).
    pose proof (Hc _ _ I3). pose proof (Hc _ _ I4). pose proof (Hc _ _ I5).
    apply Rle_trans with (sumf g [(x0, y0); (x3, y3); (x1, y1); (x4, y4); (x2, y2); (x5, y5)]).
    + cbn [sumf fst snd]. fold (cc x0 y0) (cc x1 y1) (cc x2 y2) (cc x3 y3) (cc x4 y4) (cc x5 y5).
      unfold kim6, kim4.
      assert (A0 : cc 0 0 = cc x0 y0) by (f_equal; lia).
      assert (A3 : cc (m - 1) (n - 1) = cc x3 y3) by (f_equal; lia).
      assert (A1 : Rmin (Rmin (cc 0 1) (cc 1 1)) (cc 1 0) <= cc x1 y1).
      { assert ((x1 = 0 /\ y1 = 1) \/ (x1 = 1 /\ y1 = 1) \/ (x1 = 1 /\ y1 = 0))%Z as [(-> & ->)|[(-> & ->)|(-> & ->)]] by lia; rmin. }
      assert (A4 : Rmin (Rmin (cc (m - 1) (n - 2)) (cc (m - 2) (n - 2))) (cc (m - 2) (n - 1)) <= cc x4 y4).
      { assert ((x4 = m - 1 /\ y4 = n - 2) \/ (x4 = m - 2 /\ y4 = n - 2) \/ (x4 = m - 2 /\ y4 = n - 1))%Z as [(-> & ->)|[(-> & ->)|(-> & ->)]] by lia; rmin. }
      assert (A2 : Rmin (Rmin (Rmin (cc 0 2) (cc 1 2)) (Rmin (cc 2 2) (cc 2 1))) (cc 2 0) <= cc x2 y2).
      { assert ((x2 = 0 /\ y2 = 2) \/ (x2 = 1 /\ y2 = 2) \/ (x2 = 2 /\ y2 = 2) \/ (x2 = 2 /\ y2 = 1) \/ (x2 = 2 /\ y2 = 0))%Z
          as [(-> & ->)|[(-> & ->)|[(-> & ->)|[(-> & ->)|(-> & ->)]]]] by lia; rmin. }
      assert (A5 : Rmin (Rmin (Rmin (cc (m - 1) (n - 3)) (cc (m - 2) (n - 3))) (Rmin (cc (m - 3) (n - 3)) (cc (m - 3) (n - 2)))) (cc (m - 3) (n - 1)) <= cc x5 y5).
      { assert ((x5 = m - 1 /\ y5 = n - 3) \/ (x5 = m - 2 /\ y5 = n - 3) \/ (x5 = m - 3 /\ y5 = n - 3) \/ (x5 = m - 3 /\ y5 = n - 2) \/ (x5 = m - 3 /\ y5 = n - 1))%Z
          as [(-> & ->)|[(-> & ->)|[(-> & ->)|[(-> & ->)|(-> & ->)]]]] by lia; rmin. }
      rewrite A0, A3. lra.
    + apply sumf_incl; auto.
      * repeat constructor; cbn; intros Q;
          repeat (destruct Q as [Q|Q]; [injection Q; intros; lia|]); try contradiction.
      * intros z [<-|[<-|[<-|[<-|[<-|[<-|[]]]]]]]; auto.
  - intros H4.
    destruct (ring_start _ _ _ _ Hp 0) as (x0 & y0 & I0 & E0); [lia|].
    destruct (ring_start _ _ _ _ Hp 1) as (x1 & y1 & I1 & E1); [lia|].
    destruct (ring_end _ _ _ _ Hp (m - 1) (n - 1) 0) as (x3 & y3 & I3 & E3); [lia..|].
    destruct (ring_end _ _ _ _ Hp (m - 1) (n - 1) 1) as (x4 & y4 & I4 & E4); [lia..|].
    pose proof (Hc _ _ I0). pose proof (Hc _ _ I1).
    pose proof (Hc _ _ I3). pose proof (Hc _ _ I4).
    apply Rle_trans with (sumf g [(x0, y0); (x3, y3); (x1, y1); (x4, y4)]).
    + cbn [sumf fst snd]. fold (cc x0 y0) (cc x1 y1) (cc x3 y3) (cc x4 y4).
      unfold kim4.
      assert (A0 : cc 0 0 = cc x0 y0) by (f_equal; lia).
      assert (A3 : cc (m - 1) (n - 1) = cc x3 y3) by (f_equal; lia).
      assert (A1 : Rmin (Rmin (cc 0 1) (cc 1 1)) (cc 1 0) <= cc x1 y1).
      { assert ((x1 = 0 /\ y1 = 1) \/ (x1 = 1 /\ y1 = 1) \/ (x1 = 1 /\ y1 = 0))%Z as [(-> & ->)|[(-> & ->)|(-> & ->)]] by lia; rmin. }
      assert (A4 : Rmin (Rmin (cc (m - 1) (n - 2)) (cc (m - 2) (n - 2))) (cc (m - 2) (n - 1)) <= cc x4 y4).
      { assert ((x4 = m - 1 /\ y4 = n - 2) \/ (x4 = m - 2 /\ y4 = n - 2) \/ (x4 = m - 2 /\ y4 = n - 1))%Z as [(-> & ->)|[(-> & ->)|(-> & ->)]] by lia; rmin. }
      rewrite A0, A3. lra.
    + apply sumf_incl; auto.
      * repeat constructor; cbn; intros Q;
          repeat (destruct Q as [Q|Q]; [injection Q; intros; lia|]); try contradiction.
      * intros z [<-|[<-|[<-|[<-|[]]]]]; auto.
Qed.

Lemma kim_admissible r C : dtw_cost RX a b r C ->
  (3 <= Z.min m n /\ 6 <= Z.max m n \/ Z.min m n = 4)%Z ->
  exists k, kimLowerBound RX a b (ninf RX) = Ok k /\ le RX k C.
Proof.
  intros HC Hl. rewrite kim_value by lia. eexists; split; [reflexivity|].
  destruct HC as [((p & Hp & HC) & _)|(_ & ->)]; [|reflexivity].
  rewrite <- HC, path_cost_sum by auto. unfold le; cbn [nltb RX rx_ltb].
  assert (H : forall x y, x <= y -> Rltb y x = false) by (intros; unfold Rltb; destruct Rlt_dec; auto; lra).
  apply H. destruct (kim_le r p Hp) as (K6 & K4). destruct (Z.eqb_spec (Z.min m n) 4) as [Q4|Q4].
  - apply K4. lia.
  - apply K6. lia.
Qed.

(** With a side of length 2 the third ring is read out of range. *)
Lemma ts_at_out (x : list rx) i : (zlen x <= i)%Z -> ts_at RX x i = Throw (OnexExn "Data point index is out of range"%string).
Proof. intros H. unfold ts_at. change (@zlen (num RX)) with (@zlen rx). destruct (Z.leb_spec (zlen x) i); [|lia]. now rewrite orb_true_r. Qed.
Lemma kim_len2 : (Z.min m n = 2)%Z ->
  kimLowerBound RX a b (ninf RX) = Throw (OnexExn "Data point index is out of range"%string).
Proof.
  intros Hl. unfold kimLowerBound. cbv zeta. change (@zlen (num RX)) with (@zlen rx).
  destruct (Z.eqb_spec (Z.min m n) 0) as [Q|_]; [lia|]. destruct (Z.eqb_spec (Z.min m n) 1) as [Q|_]; [lia|].
  destruct (Z.eqb_spec (Z.min m n) 4) as [Q|_]; [lia|].
  rewrite (e_Ok 0 0), (e_Ok (m - 1) (n - 1)), (e_Ok 0 1), (e_Ok 1 1), (e_Ok 1 0), (e_Ok (m - 1) (n - 2)), (e_Ok (m - 2) (n - 2)),
    (e_Ok (m - 2) (n - 1)) by lia. cbn [bind]. change (nzero RX) with (Fin 0).
  rewrite !add_rx, !inf_lt, !smin_rx, !add_rx, !inf_lt, !inf_le.
  destruct (Z.eq_dec n 2) as [Hn|Hn].
  - rewrite (ts_at_Ok RX a 0) by (change (@zlen (num RX)) with (@zlen rx); lia). rewrite (ts_at_out b 2) by lia. reflexivity.
  - rewrite (e_Ok 0 2), (e_Ok 1 2) by lia. cbn [bind]. rewrite (ts_at_out a 2) by lia. reflexivity.
Qed.
End Kim.


(** ** The bound fails on 3x3 and 5x5 series (constant 0 against constant 1). *)
Lemma const_witness n k : (n = 3%nat \/ n = 5%nat) -> k = f64_ofZ 6 ->
  exists C, dtw_cost F64 (map f64_ofZ (repeat 0%Z n)) (map f64_ofZ (repeat 1%Z n)) (Z.of_nat n - 1) C /\ lt F64 C k.
Proof.
  intros Hn ->.
  assert (A : Forall fin64 (map f64_ofZ (repeat 0%Z n))) by (apply fin64_Zs; destruct Hn as [->| ->]; reflexivity).
  assert (B : Forall fin64 (map f64_ofZ (repeat 1%Z n))) by (apply fin64_Zs; destruct Hn as [->| ->]; reflexivity).
  destruct (dtw_cost_total F64 _ _ f64_cost _ _ (Z.of_nat n - 1) A B) as (C & HC).
  { lia. } { destruct Hn as [->| ->]; discriminate. } { destruct Hn as [->| ->]; discriminate. }
  exists C. split; auto.
  assert (PC : pos64 C).
  { eapply dtw_cost_pos with (1 := f64_cost) (2 := A) (3 := B); eauto; destruct Hn as [->| ->]; vm_compute; congruence. }
  assert (D : forall i, (0 <= i)%Z -> warp_path (Z.of_nat n - 1) i i (map (fun j => (j, j)) (map Z.of_nat (seq 0 (S (Z.to_nat i)))))).
  { intros i Hi. pattern i. apply natlike_ind; auto.
    - apply path_start.
    - intros x Hx IH. rewrite Z2Nat.inj_succ by auto. rewrite seq_S, !map_app. cbn [map].
      rewrite Nat.add_0_l, Nat2Z.inj_succ, Z2Nat.id by auto.
      apply path_step with x x; auto; [right; right; lia|]. replace (Z.succ x - Z.succ x)%Z with 0%Z by lia. destruct Hn as [->| ->]; cbn; lia. }
  specialize (D (Z.of_nat n - 1)%Z ltac:(destruct Hn as [->| ->]; cbn; lia)).
  destruct HC as [(_ & Hl)|(H & _)].
  - destruct Hn as [-> | ->].
    + cbn in D. specialize (Hl _ D). apply lt64; [apply pos_ok; auto|apply fin_ok, ofZ_exact; lia|].
      change (le F64 C (path_cost F64 (map f64_ofZ (repeat 0%Z 3)) (map f64_ofZ (repeat 1%Z 3)) [(0,0);(1,1);(2,2)]%Z)) in Hl.
      replace (path_cost F64 _ _ _) with (f64_ofZ 3) in Hl by (vm_compute; reflexivity).
      apply le64 in Hl; [|apply pos_ok; auto|apply fin_ok, ofZ_exact; lia].
      destruct (ofZ_exact 3) as (_ & V3); [lia|]. destruct (ofZ_exact 6) as (_ & V6); [lia|]. rewrite V3 in Hl. rewrite V6. lra.
    + cbn in D. specialize (Hl _ D). apply lt64; [apply pos_ok; auto|apply fin_ok, ofZ_exact; lia|].
      change (le F64 C (path_cost F64 (map f64_ofZ (repeat 0%Z 5)) (map f64_ofZ (repeat 1%Z 5)) [(0,0);(1,1);(2,2);(3,3);(4,4)]%Z)) in Hl.
      replace (path_cost F64 _ _ _) with (f64_ofZ 5) in Hl by (vm_compute; reflexivity).
      apply le64 in Hl; [|apply pos_ok; auto|apply fin_ok, ofZ_exact; lia].
      destruct (ofZ_exact 5) as (_ & V3); [lia|]. destruct (ofZ_exact 6) as (_ & V6); [lia|]. rewrite V3 in Hl. rewrite V6. lra.
  - exfalso. destruct Hn as [-> | ->]; cbn in D; eapply H; exact D.
Qed.
Lemma kim_short_fails :
  (exists a b C k, zlen a = 3%Z /\ zlen b = 3%Z /\ Forall small64 a /\ Forall small64 b /\
     dtw_cost F64 a b 2 C /\ kimLowerBound F64 a b (ninf F64) = Ok k /\ lt F64 C k) /\
  (exists a b C k, zlen a = 5%Z /\ zlen b = 5%Z /\ Forall small64 a /\ Forall small64 b /\
     dtw_cost F64 a b 4 C /\ kimLowerBound F64 a b (ninf F64) = Ok k /\ lt F64 C k).
Proof.
  split.
  - destruct (const_witness 3 (f64_ofZ 6)) as (C & HC & Hl); auto.
    exists (map f64_ofZ (repeat 0%Z 3)), (map f64_ofZ (repeat 1%Z 3)), C, (f64_ofZ 6).
    split; [reflexivity|]. split; [reflexivity|]. split; [now apply small64_Zs|]. split; [now apply small64_Zs|].
    split; [exact HC|]. split; [vm_compute; reflexivity|exact Hl].
  - destruct (const_witness 5 (f64_ofZ 6)) as (C & HC & Hl); auto.
    exists (map f64_ofZ (repeat 0%Z 5)), (map f64_ofZ (repeat 1%Z 5)), C, (f64_ofZ 6).
    split; [reflexivity|]. split; [reflexivity|]. split; [now apply small64_Zs|]. split; [now apply small64_Zs|].
    split; [exact HC|]. split; [vm_compute; reflexivity|exact Hl].
Qed.
