(** * Property C51: the order of candidates.

    A candidate is a subsequence (series index, start, length) with its distance.  [val] is the real number that a
    finite double denotes and [rnd r] is [r] rounded to a double. *)
From Coq Require Import ZArith Bool Lia Reals Lra SpecFloat List.
From Flocq Require Import Core BinarySingleNaN.
From Verif Require Import Outcome Num TimeSeries Text F64Base F64Laws.
Import ListNotations.
Open Scope Z_scope.

(** src/TimeSeries.hpp:12: the tolerance 1e-12 as a double. *)
Definition EPS : spec_float := lit_value false (LDec 1 (-12)).
Definition before (x y : candidate F64) : Prop := cand_ltb F64 EPS x y = true.

(** ** Specification. *)
(** The distances differ by less than the tolerance. *)
Definition near (x y : candidate F64) : Prop := (Rabs (rnd (val (cand_dist x) - val (cand_dist y))) < val EPS)%R.
(** Order of the subsequences: index, then start, then length. *)
Definition place_before (x y : candidate F64) : Prop :=
  let a := cand_data x in let b := cand_data y in
  ts_index a < ts_index b \/ (ts_index a = ts_index b /\ (ts_start a < ts_start b \/ (ts_start a = ts_start b /\ ts_len a < ts_len b))).
Definition finite_dist (x : candidate F64) : Prop := fin64 (cand_dist x).
(** Candidates whose distances are pairwise equal or apart by the tolerance. *)
Definition spread (l : list (candidate F64)) : Prop :=
  forall x y, In x l -> In y l -> finite_dist x /\ (val (cand_dist x) = val (cand_dist y) \/ ~ near x y).
(** A strict weak order, as required of the comparison in a sort. *)
Definition strict_weak {A} (R : A -> A -> Prop) (P : A -> Prop) : Prop :=
  (forall x, P x -> ~ R x x) /\ (forall x y z, P x -> P y -> P z -> R x y -> R y z -> R x z) /\
  (forall x y z, P x -> P y -> P z -> ~ R x y -> ~ R y x -> ~ R y z -> ~ R z y -> ~ R x z /\ ~ R z x).

(** ** Proofs. *)
Lemma EPS_ok : ok64 EPS /\ pos64 EPS /\ (0 < val EPS)%R.
Proof.
  assert (E : EPS = S754_finite false 4951760157141521 (-92)) by (vm_compute; reflexivity). rewrite E. split; [split; [vm_compute; reflexivity|discriminate]|]. split; [split; [vm_compute; reflexivity|reflexivity]|].
  cbn [val cond_Zopp]. apply F2R_gt_0. cbn. lia.
Qed.
Lemma abs_val x : ok64 x -> ok64 (SFabs x) /\ val (SFabs x) = Rabs (val x).
Proof.
  intros (F & N). destruct x as [s|s| |s m e]; try congruence.
  - cbn. rewrite Rabs_R0. repeat split; auto; discriminate.
  - split; [split; [reflexivity|discriminate]|]. pose proof BIG_gt0. destruct s; cbn; [rewrite Rabs_Ropp|]; rewrite Rabs_pos_eq; lra.
  - split; [split; [exact F|discriminate]|]. cbn [SFabs val]. rewrite <- F2R_Zabs. now rewrite abs_cond_Zopp.
Qed.
Lemma clip_abs_lt r e : (0 < e < BIG)%R -> (Rabs (clip r) < e <-> Rabs r < e)%R.
Proof.
  intros He. unfold clip, Rmax, Rmin. split; intros H; apply Rabs_lt_inv in H as (H1 & H2); apply Rabs_lt; repeat destruct (Rle_dec _ _); lra.
Qed.
Lemma near_ltb x y : finite_dist x -> finite_dist y -> nltb F64 (nabs F64 (nsub F64 (cand_dist x) (cand_dist y))) EPS = true <-> near x y.
Proof.
  intros Fx Fy. destruct EPS_ok as (O & P & Q). destruct (sub_rnd _ _ Fx Fy) as (A & B). destruct (abs_val _ A) as (C & D).
  change (nltb F64) with SFltb. change (nabs F64) with SFabs. change (nsub F64) with (SFsub prec64 emax64). rewrite (ltb_true _ _ C O), D, B. unfold near. apply clip_abs_lt. split; auto.
  apply val_fin_bound. split; [apply O|]. assert (E : EPS = S754_finite false 4951760157141521 (-92)) by (vm_compute; reflexivity). rewrite E. exact I.
Qed.
Lemma place_ltb x y : (if ts_index (cand_data x) =? ts_index (cand_data y) then
      if ts_start (cand_data x) =? ts_start (cand_data y) then ts_len (cand_data x) <? ts_len (cand_data y) else ts_start (cand_data x) <? ts_start (cand_data y)
    else ts_index (cand_data x) <? ts_index (cand_data y)) = true <-> place_before x y.
Proof.
  unfold place_before. destruct (Z.eqb_spec (ts_index (cand_data x)) (ts_index (cand_data y))); [destruct (Z.eqb_spec (ts_start (cand_data x)) (ts_start (cand_data y)))|]; rewrite Z.ltb_lt; lia.
Qed.

Theorem C51_meaning : forall x y, finite_dist x -> finite_dist y ->
  (before x y <-> (near x y /\ place_before x y) \/ (~ near x y /\ (val (cand_dist x) < val (cand_dist y))%R)).
Proof.
  intros x y Fx Fy. unfold before, cand_ltb. pose proof (near_ltb x y Fx Fy) as H. destruct (nltb F64 (nabs F64 _) EPS).
  - rewrite place_ltb. assert (near x y) by now apply H. tauto.
  - assert (N : ~ near x y) by (intros X; apply H in X; discriminate). change (nltb F64) with SFltb. rewrite (ltb_true _ _ (fin_ok _ Fx) (fin_ok _ Fy)). tauto.
Qed.
(** For all distances, infinite and NaN included. *)
Theorem C51_irreflexive : forall x, ~ before x x.
Proof.
  intros x. unfold before, cand_ltb. rewrite !Z.eqb_refl, Z.ltb_irrefl. destruct (nltb F64 (nabs F64 _) EPS); [discriminate|]. change (nltb F64) with SFltb. unfold SFltb.
  pose proof (cmp_swap (cand_dist x) (cand_dist x)) as H. destruct (SFcompare (cand_dist x) (cand_dist x)) as [[]|]; try discriminate. 
Qed.
Lemma sub_nan_l y : SFsub prec64 emax64 S754_nan y = S754_nan. Proof. destruct y; reflexivity. Qed.
Lemma ltb_asym x y : SFltb x y = true -> SFltb y x = false.
Proof. unfold SFltb. rewrite (cmp_swap x y). destruct (SFcompare x y) as [[]|]; auto; discriminate. Qed.
Lemma near_sym (x y : candidate F64) : is_f64 (cand_dist x) = true -> is_f64 (cand_dist y) = true ->
  nltb F64 (nabs F64 (nsub F64 (cand_dist x) (cand_dist y))) EPS = nltb F64 (nabs F64 (nsub F64 (cand_dist y) (cand_dist x))) EPS.
Proof.
  intros Hx Hy. assert (Fin : forall d, is_f64 d = true -> fin64 d \/ d = S754_nan \/ exists s, d = S754_infinity s).
  { intros d Hd. destruct d as [s|s| |s m e]; eauto; left; split; auto. }
  destruct (Fin _ Hx) as [Fx|[Ex|(s & Ex)]].
  - destruct (Fin _ Hy) as [Fy|[Ey|(s & Ey)]].
    + apply eq_true_iff_eq. rewrite (near_ltb x y Fx Fy), (near_ltb y x Fy Fx). unfold near. replace (val (cand_dist y) - val (cand_dist x))%R with (- (val (cand_dist x) - val (cand_dist y)))%R by lra.
      rewrite rnd_opp, Rabs_Ropp. tauto.
    + rewrite Ey. destruct (cand_dist x) as [a|a| |a m e]; reflexivity.
    + rewrite Ey. destruct Fx as (_ & Fx). destruct (cand_dist x) as [a|a| |a m e]; try destruct Fx; destruct s; reflexivity.
  - rewrite Ex. destruct (cand_dist y) as [a|a| |a m e]; reflexivity.
  - rewrite Ex. destruct (cand_dist y) as [a|a| |a m e]; destruct s; try destruct a; reflexivity.
Qed.
Theorem C51_asymmetric : forall x y : candidate F64, is_f64 (cand_dist x) = true -> is_f64 (cand_dist y) = true -> before x y -> ~ before y x.
Proof.
  intros x y Hx Hy. unfold before, cand_ltb. rewrite (near_sym y x Hy Hx). destruct (nltb F64 (nabs F64 _) EPS).
  - rewrite !place_ltb. unfold place_before. lia.
  - change (nltb F64) with SFltb. intros H. rewrite (ltb_asym _ _ H). discriminate.
Qed.

Lemma near_refl x : near x x.
Proof. unfold near. rewrite Rminus_diag_eq by reflexivity. rewrite rnd_0, Rabs_R0. apply EPS_ok. Qed.
Lemma near_eq (x y : candidate F64) : val (cand_dist x) = val (cand_dist y) -> near x y.
Proof. intros E. unfold near. rewrite E. apply (near_refl y). Qed.
(** On such candidates the comparison is a strict weak order. *)
Theorem C51_spread : forall l, spread l -> strict_weak before (fun x => In x l).
Proof.
  intros l H. assert (M : forall x y, In x l -> In y l -> (before x y <-> (val (cand_dist x) = val (cand_dist y) /\ place_before x y) \/ (val (cand_dist x) < val (cand_dist y))%R)).
  { intros x y Hx Hy. destruct (H x y Hx Hy) as (Fx & D). destruct (H y x Hy Hx) as (Fy & _). rewrite (C51_meaning x y Fx Fy). destruct D as [E|N].
    - pose proof (near_eq x y E) as N. rewrite E. split; [intros [?|(X & _)]; tauto|]. intros [(_ & ?)|X]; [tauto|lra].
    - assert (val (cand_dist x) <> val (cand_dist y)) by (intros E; apply N; now apply near_eq). tauto. }
  split; [intros x _; apply C51_irreflexive|]. split.
  - intros x y z Hx Hy Hz. rewrite !M by auto. unfold place_before. cbv zeta. intros [(E1 & P1)|L1] [(E2 & P2)|L2]; [left; split; [congruence|clear - P1 P2; lia]|right; lra|right; lra|right; lra].
  - intros x y z Hx Hy Hz. rewrite !M by auto. intros A B C D.
    assert (E1 : val (cand_dist x) = val (cand_dist y)) by (apply Rle_antisym; apply Rnot_lt_le; tauto). assert (E2 : val (cand_dist y) = val (cand_dist z)) by (apply Rle_antisym; apply Rnot_lt_le; tauto).
    assert (A' : ~ place_before x y) by auto. assert (B' : ~ place_before y x) by auto. assert (C' : ~ place_before y z) by auto. assert (D' : ~ place_before z y) by auto.
    unfold place_before in *. cbv zeta in *. split; intros [(_ & P)|L]; try lra; clear - P A' B' C' D'; lia.
Qed.
(** In general it is not: candidates in a cycle, and equivalence that is not transitive. *)
Definition cand (i : Z) (d : spec_float) : candidate F64 := @mkCand F64 (@mkTS F64 Null i 0 2 2 None) d.
Definition d_ (m : N) : spec_float := lit_value false (LDec m (-13)).
Theorem C51_cycle_witness : exists x y z, finite_dist x /\ finite_dist y /\ finite_dist z /\ before x y /\ before y z /\ before z x.
Proof.
  exists (cand 0 (d_ 12)), (cand 1 (d_ 6)), (cand 2 (d_ 0)). do 3 (split; [split; [vm_compute; reflexivity|vm_compute; exact I]|]). split; [vm_compute; reflexivity|]. split; vm_compute; reflexivity.
Qed.
Theorem C51_equivalence_witness : exists x y z, finite_dist x /\ finite_dist y /\ finite_dist z /\
  ~ before x y /\ ~ before y x /\ ~ before y z /\ ~ before z y /\ before x z.
Proof. exists (cand 0 (d_ 0)), (cand 0 (d_ 6)), (cand 0 (d_ 12)). do 3 (split; [split; [vm_compute; reflexivity|vm_compute; exact I]|]).
  split; [vm_compute; discriminate|]. split; [vm_compute; discriminate|]. split; [vm_compute; discriminate|]. split; [vm_compute; discriminate|]. vm_compute. reflexivity. Qed.
Theorem C51_not_strict_weak : ~ strict_weak before finite_dist.
Proof.
  intros (H & T & _). destruct C51_cycle_witness as (x & y & z & Fx & Fy & Fz & A & B & C). exact (H x Fx (T x z x Fx Fz Fx (T x y z Fx Fy Fz A B) C)).
Qed.
Example C51_case : spread [cand 3 (f64_ofZ 1); cand 1 (f64_ofZ 1); cand 2 (f64_ofZ 2)] /\ before (cand 1 (f64_ofZ 1)) (cand 3 (f64_ofZ 1)) /\ before (cand 3 (f64_ofZ 1)) (cand 2 (f64_ofZ 2)).
Proof.
  split; [|split; vm_compute; reflexivity]. assert (X : forall x, In x [cand 3 (f64_ofZ 1); cand 1 (f64_ofZ 1); cand 2 (f64_ofZ 2)] -> finite_dist x) by (intros x [<-|[<-|[<-|[]]]]; (split; [vm_compute; reflexivity|vm_compute; exact I])).
  intros x y Hx Hy. split; auto. assert (N : forall x y, finite_dist x -> finite_dist y -> nltb F64 (nabs F64 (nsub F64 (cand_dist x) (cand_dist y))) EPS = false -> ~ near x y) by (intros ? ? ? ? E Q; apply near_ltb in Q; auto; congruence).
  destruct Hx as [<-|[<-|[<-|[]]]], Hy as [<-|[<-|[<-|[]]]]; first [left; reflexivity|right; apply N; [apply X; unfold In; tauto|apply X; unfold In; tauto|vm_compute; reflexivity]].
Qed.
