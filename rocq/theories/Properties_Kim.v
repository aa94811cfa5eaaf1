(** * C13: the Kim bound with a dropout (Distance.cpp:138-194). *)
From Coq Require Import ZArith Bool Reals Lra Lia SpecFloat.
From Coq Require Import List String.
From Verif Require Import Outcome Num RX Lemire Distance F64Base Laws F64Laws RXLaws Spec DtwProofs Numeric Kim KimDropout.
Import ListNotations.
Open Scope Z_scope.

Lemma f64_cut (d x y : spec_float) : is_f64 d = true -> pos64 x -> pos64 y -> le F64 x y ->
  nltb F64 d x = true \/ nleb F64 d x = true -> nltb F64 y d = false.
Proof.
  intros Hd Px Py Hxy H. assert (Hn : ok64 d).
  { split; auto. intros ->. destruct H as [H|H]; cbn in H; discriminate. }
  assert (Ox := pos_ok _ Px). assert (Oy := pos_ok _ Py). apply le64 in Hxy; auto.
  apply ltb_false; auto. destruct H as [H|H].
  - apply ltb_true in H; auto. lra.
  - apply leb_true in H; auto. lra.
Qed.
Lemma rx_cut (d x y : rx) : pos_rx x -> pos_rx y -> le RX x y ->
  nltb RX d x = true \/ nleb RX d x = true -> nltb RX y d = false.
Proof.
  unfold le. intros [->|(r & -> & Hr)] [->|(s & -> & Hs)] Hxy H; destruct d as [t| | |]; cbn in *; try discriminate; auto;
    try (destruct H; discriminate). 
  unfold rx_leb, rx_ltb, rx_eqb, Rltb, Reqb in *.
  destruct (Rlt_dec s r); [discriminate|]. destruct (Rlt_dec s t); auto. exfalso.
  destruct (Rlt_dec t r), (Req_EM_T t r); cbn in H; try lra; destruct H; discriminate.
Qed.

(** With a dropout the bound is the one without dropout or infinite, and it is infinite only if the
    bound without dropout is not below the dropout. *)
Theorem C13_kim_dropout : forall a b d, Forall fin64 a -> Forall fin64 b -> is_f64 d = true ->
  3 <= zlen a -> 3 <= zlen b ->
  exists k, kimLowerBound F64 a b (ninf F64) = Ok k /\
    (kimLowerBound F64 a b d = Ok k \/ (kimLowerBound F64 a b d = Ok (ninf F64) /\ ~ lt F64 k d)).
Proof.
  intros a b d Ha Hb Hd La Lb.
  destruct (kim_dropout F64 fin64 pos64 f64_cost d) with (a := a) (b := b) as (k & _ & K & H); auto.
  - intros x y Px Py Hxy E. apply (f64_cut d x y); auto.
  - intros x y Px Py Hxy E. apply (f64_cut d x y); auto.
  - intros x Px E. apply (inf_max F64 fin64 pos64 f64_cost x Px). apply le64; auto using pos_ok, pos_inf64.
    apply leb_true in E; auto using pos_ok, pos_inf64.
  - exists k. split; [exact K|]. destruct H as [H|(H & E)]; [now left|right; split; auto].
    unfold lt. now rewrite E.
Qed.

(** In exact arithmetic: whatever the dropout, a pair for which the bound is above the least cost of a
    warping path has a least cost that is not below the dropout. *)
Theorem C13_kim_prunes_safely : forall a b r C d, Forall dat_rx a -> Forall dat_rx b -> dtw_cost RX a b r C ->
  (3 <= Z.min (zlen a) (zlen b) /\ 6 <= Z.max (zlen a) (zlen b)) \/ Z.min (zlen a) (zlen b) = 4 ->
  exists k, kimLowerBound RX a b d = Ok k /\ (le RX k C \/ (k = ninf RX /\ le RX d C)).
Proof.
  intros a b r C d Ha Hb HC Hl. destruct (kim_admissible a b Ha Hb r C HC Hl) as (k & K & Hk).
  destruct (kim_dropout RX dat_rx pos_rx rx_cost d) with (a := a) (b := b) as (k' & Pk & K' & H); auto; try (change (num RX) with rx; lia).
  - intros x y Px Py Hxy E. apply (rx_cut d x y); auto.
  - intros x y Px Py Hxy E. apply (rx_cut d x y); auto.
  - intros x [->|(s & -> & _)] E; [reflexivity|discriminate].
  - rewrite K in K'. injection K' as <-. destruct H as [H|(H & E)].
    + exists k. auto.
    + exists (ninf RX). split; auto. right. split; auto.
      destruct HC as [((p & _ & <-) & _)|(_ & ->)]; [|now destruct d].
      destruct (path_cost_rx a b p Ha Hb) as (c & Ec & Hc). rewrite Ec in *.
      unfold le in *. destruct Pk as [->|(s & -> & Hs)]; cbn in *; [discriminate|].
      destruct d as [t| | |]; cbn in *; auto; try discriminate.
      unfold Rltb in *. destruct (Rlt_dec c s); [discriminate|]. destruct (Rlt_dec s t); [discriminate|].
      destruct (Rlt_dec c t); auto. lra.
Qed.

(** Series of length 0 or 1: the dropout is ignored. *)
Theorem C13_kim_length_one : forall a b d, Forall fin64 a -> Forall fin64 b ->
  (Z.min (zlen a) (zlen b) = 0 -> kimLowerBound F64 a b d = Ok (nzero F64)) /\
  (Z.min (zlen a) (zlen b) = 1 -> exists x y, nth_error a 0 = Some x /\ nth_error b 0 = Some y /\
     kimLowerBound F64 a b d = Ok (nmul F64 (nsub F64 x y) (nsub F64 x y))).
Proof.
  intros a b d Ha Hb. unfold kimLowerBound. cbv zeta. change (@zlen (num F64)) with (@zlen spec_float). split; intros E; rewrite E; [reflexivity|].
  destruct a as [|x a]; [unfold zlen in E; cbn [List.length] in E; lia|].
  destruct b as [|y b]; [unfold zlen in E; cbn [List.length] in E; lia|].
  exists x, y. split; [reflexivity|]. split; reflexivity.
Qed.

(** Six-point series at bound 10: a dropout of 11 gives the bound, a dropout equal to the bound gives
    infinity.  Series of length two give infinity if the first terms exceed the dropout and throw
    otherwise. *)
Example C13_kim_dropout_case :
  let k d := kimLowerBound F64 (map f64_ofZ [0; 1; 2; 3; 4; 5]) (map f64_ofZ [2; 3; 4; 5; 6; 7]) (f64_ofZ d) in
  let k2 d := kimLowerBound F64 (map f64_ofZ [0; 1]) (map f64_ofZ [2; 3]) (f64_ofZ d) in
  k 11 = Ok (f64_ofZ 10) /\ k 10 = Ok (ninf F64) /\ k 7 = Ok (ninf F64) /\
  k2 7 = Ok (ninf F64) /\ k2 18 = Throw (OnexExn "Data point index is out of range").
Proof. vm_compute. repeat split. Qed.
