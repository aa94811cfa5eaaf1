(** * Exact arithmetic: how much the warped distance changes when one series changes. *)
From Coq Require Import ZArith Bool Reals Lra Lia.
From Coq Require Import List Permutation.
From Verif Require Import Outcome Num RX Lemire Distance Laws RXLaws Spec DtwProofs SafeDist Numeric Metric.
Import ListNotations.
Open Scope R_scope.

(** ** Sums over lists of cells. *)
Fixpoint lsum {A} (f : A -> R) (l : list A) : R := match l with [] => 0 | x :: l' => f x + lsum f l' end.
Lemma lsum_app {A} (f : A -> R) l l' : lsum f (l ++ l') = lsum f l + lsum f l'.
Proof. induction l as [|x l IH]; cbn; [lra|]. rewrite IH. lra. Qed.
Lemma lsum_ext {A} (f g : A -> R) l : (forall x, In x l -> f x = g x) -> lsum f l = lsum g l.
Proof. induction l as [|x l IH]; cbn; intros H; auto. rewrite (H x), IH; auto. Qed.
Lemma lsum_map {A B} (f : B -> R) (g : A -> B) l : lsum f (map g l) = lsum (fun x => f (g x)) l.
Proof. induction l as [|x l IH]; cbn; auto. now rewrite IH. Qed.
Lemma lsum_const {A} c (l : list A) : lsum (fun _ => c) l = INR (length l) * c.
Proof. induction l as [|x l IH]; [cbn; lra|]. cbn [lsum length]. rewrite IH, S_INR. lra. Qed.
Lemma lsum_pos {A} (f : A -> R) l : (forall x, 0 <= f x) -> 0 <= lsum f l.
Proof. intros H. induction l as [|x l IH]; cbn; [lra|]. specialize (H x). lra. Qed.
Lemma lsum_incl {A} (f : A -> R) : (forall x, 0 <= f x) -> forall p l, NoDup p -> incl p l -> lsum f p <= lsum f l.
Proof.
  intros Hf. induction p as [|x p IH]; intros l Hp Hi; [cbn; now apply lsum_pos|].
  inversion Hp as [|? ? Hx Hp']; subst. destruct (in_split x l) as (l1 & l2 & ->); [apply Hi; now left|].
  cbn [lsum]. assert (lsum f p <= lsum f (l1 ++ l2)).
  { apply IH; auto. intros y Hy. assert (In y (l1 ++ x :: l2)) as H by (apply Hi; now right).
    apply in_app_iff in H as [H|[->|H]]; [apply in_or_app; auto|contradiction|apply in_or_app; auto]. }
  rewrite lsum_app in *. cbn [lsum]. lra.
Qed.

(** ** The cells of a warping path. *)
Definition zrange (lo : Z) (k : nat) : list Z := map (fun x => (lo + Z.of_nat x)%Z) (seq 0 k).
Lemma in_zrange lo k i : In i (zrange lo k) <-> (lo <= i < lo + Z.of_nat k)%Z.
Proof.
  unfold zrange. rewrite in_map_iff. split.
  - intros (x & <- & H). apply in_seq in H. lia.
  - intros H. exists (Z.to_nat (i - lo)). split; [lia|]. apply in_seq. lia.
Qed.
Lemma path_cells r i j p : (0 <= r)%Z -> warp_path r i j p ->
  (0 <= i)%Z /\ (0 <= j)%Z /\ NoDup p /\
  forall c, In c p -> (0 <= fst c <= i)%Z /\ (0 <= snd c <= j)%Z /\ (Z.abs (fst c - snd c) <= r)%Z.
Proof.
  intros Hr. induction 1 as [|i j p i' j' H (Hi & Hj & Nd & IH) S B].
  - split; [lia|]. split; [lia|]. split; [repeat constructor; auto|]. intros c [<-|[]]. cbn. lia.
  - assert (i <= i' /\ j <= j' /\ i + j < i' + j')%Z as (S1 & S2 & S3) by (destruct S as [S|[S|S]]; lia).
    split; [lia|]. split; [lia|]. split.
    + apply (Permutation_NoDup (Permutation_cons_append p (i', j'))). constructor; auto. intros Hin. destruct (IH _ Hin) as (H1 & H2 & _). cbn in *. lia.
    + intros c Hc. apply in_app_iff in Hc as [Hc|[<-|[]]].
      * destruct (IH c Hc) as (H1 & H2 & H3). repeat split; lia.
      * cbn. repeat split; lia.
Qed.
(** How many cells of a column a path inside the band can visit: at most the rows, at most 2r+1. *)
Definition reach (m r : Z) : Z := Z.min m (2 * r + 1).
Lemma path_sum r m n p (g : Z -> R) : (0 <= r)%Z -> (0 < m)%Z -> (0 < n)%Z -> (forall j, 0 <= g j) -> warp_path r (m - 1) (n - 1) p ->
  lsum (fun c => g (snd c)) p <= IZR (reach m r) * lsum g (zrange 0 (Z.to_nat n)).
Proof.
  intros Hr Hm Hn Hg Hp. destruct (path_cells r _ _ p Hr Hp) as (_ & _ & Nd & Hc).
  set (rows := fun j => zrange (Z.max 0 (j - r)) (Z.to_nat (Z.min (m - 1) (j + r) - Z.max 0 (j - r) + 1))).
  set (box := flat_map (fun j => map (fun i => (i, j)) (rows j)) (zrange 0 (Z.to_nat n))).
  apply Rle_trans with (lsum (fun c : Z * Z => g (snd c)) box).
  - apply lsum_incl; auto. intros (i, j) H. destruct (Hc _ H) as (H1 & H2 & H3). cbn in *.
    unfold box. apply in_flat_map. exists j. split; [apply in_zrange; lia|]. apply in_map_iff. exists i. split; auto. unfold rows. apply in_zrange. lia.
  - unfold box. assert (K : forall j, INR (length (rows j)) <= IZR (reach m r)).
    { intros j. rewrite INR_IZR_INZ. apply IZR_le. unfold rows, zrange, reach. rewrite map_length, seq_length. lia. }
    induction (zrange 0 (Z.to_nat n)) as [|j l IH]; cbn [flat_map lsum]; [lra|].
    rewrite lsum_app, lsum_map. cbn [snd]. rewrite lsum_const, Rmult_plus_distr_l.
    apply Rplus_le_compat; auto. apply Rmult_le_compat_r; auto.
Qed.

(** ** The cost of a path, as a real number. *)
Definition ra (a : list R) (i : Z) : R := nth (Z.to_nat i) a 0.
Lemma at_Fin a i : at_ RX (map Fin a) i = Fin (ra a i).
Proof. unfold at_, ra. change (nzero RX) with (Fin 0). apply map_nth. Qed.
Definition along (a b : list R) (p : list (Z * Z)) : R := lsum (fun c => sq (ra a (fst c) - ra b (snd c))) p.
Lemma path_cost_rx a b p : path_cost RX (map Fin a) (map Fin b) p = Fin (along a b p).
Proof.
  unfold path_cost, along. change (nzero RX) with (Fin 0).
  assert (H : forall s, fold_left (fun acc c => nadd RX acc (sqd RX (at_ RX (map Fin a) (fst c)) (at_ RX (map Fin b) (snd c)))) p (Fin s) =
    Fin (s + lsum (fun c => sq (ra a (fst c) - ra b (snd c))) p)).
  { induction p as [|c p IH]; intros s; cbn [fold_left lsum]; [f_equal; lra|]. rewrite !at_Fin.
    change (nadd RX (Fin s) (sqd RX (Fin (ra a (fst c))) (Fin (ra b (snd c)))))
      with (Fin (s + (ra a (fst c) + - ra b (snd c)) * (ra a (fst c) + - ra b (snd c)))).
    rewrite IH. f_equal. unfold sq, Rminus. ring. }
  rewrite H. f_equal. lra.
Qed.
Lemma along_pos a b p : 0 <= along a b p.
Proof. apply lsum_pos. intros c. apply sq_pos. Qed.
Lemma lsum_ssq {A} (f g : A -> R) p : lsum (fun c => sq (f c - g c)) p = ssq (map f p) (map g p).
Proof. induction p as [|c p IH]; cbn; auto. now rewrite IH. Qed.
Lemma ssq_sum a b : length a = length b -> ssq a b = lsum (fun j => sq (ra a j - ra b j)) (zrange 0 (length a)).
Proof.
  intros E. unfold zrange. rewrite lsum_map. revert b E. induction a as [|x a IH]; intros [|y b] E; cbn in E; try discriminate; auto.
  cbn [length seq lsum ssq]. unfold ra at 1 2. cbn [Z.to_nat nth Z.add Z.of_nat]. f_equal.
  rewrite (IH b) by lia. rewrite <- (seq_shift (length a) 0), lsum_map. apply lsum_ext. intros k _. unfold ra.
  rewrite !Z.add_0_l, !Nat2Z.id. reflexivity.
Qed.
(** Replacing the second series changes the root of the cost of a path by at most the root of the
    squared differences, each counted as often as the path visits its column. *)
Lemma along_change q y y' p r m n : (0 <= r)%Z -> zlen q = m -> zlen y = n -> zlen y' = n -> (0 < m)%Z -> (0 < n)%Z ->
  warp_path r (m - 1) (n - 1) p ->
  sqrt (along q y' p) <= sqrt (along q y p) + sqrt (IZR (reach m r) * ssq y y').
Proof.
  intros Hr Hm Hn Hn' Pm Pn Hp. unfold along. rewrite !lsum_ssq.
  apply Rle_trans with (1 := minkowski (map (fun c => ra q (fst c)) p) (map (fun c => ra y (snd c)) p) (map (fun c => ra y' (snd c)) p)
    ltac:(now rewrite !map_length) ltac:(now rewrite !map_length)).
  apply Rplus_le_compat_l, sqrt_le_1_alt. rewrite <- lsum_ssq.
  rewrite (ssq_sum y y') by (unfold zlen in *; lia). replace (length y) with (Z.to_nat n) by (unfold zlen in *; lia).
  apply (path_sum r m n p (fun j => sq (ra y j - ra y' j))); auto. intros j. apply sq_pos.
Qed.
