(** * The series of the single-precision build: costs and comparisons of floats (proofs). *)
From Coq Require Import ZArith Bool Reals Lra Lia SpecFloat List.
From Verif Require Import Outcome Num Single Lemire Distance Laws F32Base F32Laws F32Numeric Spec DtwProofs.
Import ListNotations.
Open Scope Z_scope.

Lemma zlen_map {A B} (f : A -> B) (l : list A) : zlen (map f l) = zlen l.
Proof. unfold zlen. now rewrite map_length. Qed.
Lemma fin_map a : Forall fin32 a -> Forall finS (map Sg a).
Proof. intros H. apply Forall_map. exact H. Qed.
Lemma at_Sg a i : at_ F32 (map Sg a) i = Sg (at_ B32 a i).
Proof. unfold at_. change (nzero F32) with (Sg (nzero B32)). apply map_nth. Qed.
Lemma path_cost_Sg a b p : path_cost F32 (map Sg a) (map Sg b) p = Sg (path_cost B32 a b p).
Proof.
  unfold path_cost. change (nzero F32) with (Sg (nzero B32)). generalize (nzero B32) as s.
  induction p as [|c p IH]; intros s; cbn [fold_left]; [reflexivity|].
  rewrite !at_Sg, sqd_Sg. change (nadd F32 (Sg ?x) (Sg ?y)) with (Sg (nadd B32 x y)). apply IH.
Qed.
Lemma sum_sq_Sg a b : sum_sq F32 (map Sg a) (map Sg b) = Sg (sum_sq B32 a b).
Proof.
  unfold sum_sq. change (nzero F32) with (Sg (nzero B32)). generalize (nzero B32) as s. revert b.
  induction a as [|x a IH]; intros [|y b] s; cbn [map combine fold_left fst snd]; try reflexivity.
  rewrite sqd_Sg. change (nadd F32 (Sg ?x) (Sg ?y)) with (Sg (nadd B32 x y)). apply IH.
Qed.
Lemma least_Sg a b r i j C : least_cost F32 (map Sg a) (map Sg b) r i j C <->
  exists c, C = Sg c /\ least_cost B32 a b r i j c.
Proof.
  unfold least_cost. split.
  - intros ((p & Hp & E) & H). rewrite path_cost_Sg in E. exists (path_cost B32 a b p). split; [auto|].
    split; [eauto|]. intros q Hq. specialize (H q Hq). rewrite path_cost_Sg, <- E in H. exact H.
  - intros (c & -> & (p & Hp & E) & H). split.
    + exists p. split; auto. now rewrite path_cost_Sg, E.
    + intros q Hq. rewrite path_cost_Sg. exact (H q Hq).
Qed.
Lemma dtw_cost_Sg a b r C : dtw_cost F32 (map Sg a) (map Sg b) r C ->
  exists c, C = Sg c /\ dtw_cost B32 a b r c.
Proof.
  unfold dtw_cost. rewrite !zlen_map. intros [H|(H & ->)].
  - apply least_Sg in H as (c & -> & H). eauto.
  - exists (S754_infinity false). split; [reflexivity|]. right. auto.
Qed.
Lemma no_overflow_Sg a b r : no_overflow B32 a b r -> no_overflow F32 (map Sg a) (map Sg b) r.
Proof.
  intros H i j p Hi Hj Hp. rewrite zlen_map in Hi, Hj. rewrite path_cost_Sg. exact (H i j p Hi Hj Hp).
Qed.
Lemma posS_inv v : posS v -> exists x, v = Sg x /\ pos32 x.
Proof. destruct v; cbn; try contradiction. eauto. Qed.
Lemma at_fin a i : Forall fin32 a -> fin32 (at_ B32 a i).
Proof.
  intros Ha. unfold at_. destruct (Nat.lt_ge_cases (Z.to_nat i) (length a)) as [H|H].
  - rewrite Forall_forall in Ha. apply Ha. now apply nth_In.
  - rewrite nth_overflow by auto. now split.
Qed.
Definition okS (v : mixed) : Prop := match v with Sg x => ok32 x | _ => False end.
Lemma f32_ordS : OrdLaws F32 okS.
Proof. exact (ord_Sg _ f32_ord). Qed.

(** Concrete data. *)
Lemma small32_Z z : (Z.abs z <= 2 ^ 24)%Z -> small32 (f32_ofZ z).
Proof.
  intros H. destruct (ofZ_exact z H) as (F & V). split; auto. rewrite V.
  rewrite <- abs_IZR. apply Rle_trans with (Flocq.Core.Raux.bpow Flocq.Core.Zaux.radix2 24).
  - change (Flocq.Core.Raux.bpow Flocq.Core.Zaux.radix2 24) with (IZR (2 ^ 24)). now apply IZR_le.
  - apply Flocq.Core.Raux.bpow_le. lia.
Qed.
Lemma small32_Zs l : forallb (fun z => Z.abs z <=? 2 ^ 24)%Z l = true -> Forall small32 (map f32_ofZ l).
Proof.
  intros H. rewrite forallb_forall in H. apply Forall_forall. intros x Hx.
  apply in_map_iff in Hx as (z & <- & Hz). apply small32_Z. apply Z.leb_le. now apply H.
Qed.
Lemma fin32_Zs l : forallb (fun z => Z.abs z <=? 2 ^ 24)%Z l = true -> Forall fin32 (map f32_ofZ l).
Proof. intros H. eapply Forall_impl; [|now apply small32_Zs]. apply small_fin. Qed.
