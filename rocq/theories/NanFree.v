(** * The windows that the search of the UCR suite finds hold only finite numbers. *)
From Coq Require Import ZArith Bool Lia SpecFloat List.
From Verif Require SearchProofs.
From Verif Require Import Outcome Num Lemire Spec SafeLemire Trillion TrillionSpec Search SafeSearch NanSearch.
Import ListNotations.
Open Scope Z_scope.

Lemma loop_inv_at {S} (I : Z -> S -> Prop) (body : Z -> S -> outcome S) n : (forall i s s', I i s -> body i s = Ok s' -> I (i + 1) s') -> forall i s s', I i s -> loop n i body s = Ok s' -> I (i + Z.of_nat n) s'.
Proof.
  intros H. induction n as [|n IH]; intros i s s' Hs E; cbn [loop] in E; [injection E as <-; now rewrite Z.add_0_r|].
  apply bind_Ok_inv in E as (s1 & E1 & E). apply IH in E; [|eauto]. now replace (i + Z.of_nat (Datatypes.S n)) with (i + 1 + Z.of_nat n) by lia.
Qed.
Lemma step_moves qy (m r base : Z) (buffer l u : list (num F64)) i ex ex2 t w b ex' ex2' t' w' b' :
  p_step F64 qy m r base buffer l u i (ex, ex2, t, w, b) = Ok (ex', ex2', t', w', b') -> b' = b \/ (b_loc F64 b' = base + i - m + 1 /\ m - 1 <= i < zlen buffer).
Proof.
  intros E. unfold p_step in E. apply bind_Ok_inv in E as (d & Ed & E). apply zget_inv in Ed as (Ri & _). apply bind_Ok_inv in E as (t1 & _ & E). apply bind_Ok_inv in E as (t2 & _ & E).
  destruct (Z.leb_spec (m - 1) i).
  - apply bind_Ok_inv in E as ((res & w1) & _ & E). apply bind_Ok_inv in E as (x & _ & E). injection E as _ _ _ _ <-.
    destruct res as [v|]; auto. change (nltb F64 v (b_bsf F64 b)) with (SFltb v (b_bsf F64 b)). destruct (SFltb v (b_bsf F64 b)); auto. right. split; [reflexivity|lia].
  - injection E as _ _ _ _ <-. auto.
Qed.
Lemma chunk_free qy (m r base : Z) (buffer t : list (num F64)) w b t' w' b' : chunk F64 qy m r base buffer t w b = Ok (t', w', b') ->
  b' = b \/ (base <= b_loc F64 b' /\ b_loc F64 b' + m <= base + zlen buffer /\ forall k, 0 <= k -> base + k < b_loc F64 b' + m -> ~ hole buffer k).
Proof.
  intros E. unfold chunk in E. apply bind_Ok_inv in E as ((l & u) & _ & E). apply bind_Ok_inv in E as (l' & _ & E). apply bind_Ok_inv in E as (u' & _ & E).
  apply bind_Ok_inv in E as (((((ex & ex2) & t2) & w2) & b2) & El & E). injection E as <- <- <-. unfold for_ in El.
  apply (loop_inv_at (fun i (s : pstate F64) => let '(ex, ex2, _, _, b1) := s in 0 <= i /\ (lost ex ex2 \/ forall k, 0 <= k < i -> ~ hole buffer k) /\
    (b1 = b \/ (base <= b_loc F64 b1 /\ b_loc F64 b1 + m <= base + zlen buffer /\ forall k, 0 <= k -> base + k < b_loc F64 b1 + m -> ~ hole buffer k)))) in El.
  - now destruct El as (_ & _ & H).
  - intros i ((((e, e2), t3), w3), b3) ((((e', e2'), t3'), w3'), b3') (Hi & Hex & Hb) Es. split; [lia|].
    assert (D : lost e e2 \/ hole buffer i \/ (~ lost e e2 /\ ~ hole buffer i)).
    { assert (D1 : lost e e2 \/ ~ lost e e2) by (unfold lost; destruct (nonfinite_dec e); [|tauto]; destruct e2 as [[]|[]| |[]]; cbn; tauto).
      assert (D2 : hole buffer i \/ ~ hole buffer i).
      { unfold hole. destruct (zget buffer i) as [x| | |]; try (right; intros (y & X & _); discriminate).
        destruct (nonfinite_dec x); [left; eauto|right]. intros (y & X & Y). injection X as <-. auto. }
      tauto. }
    destruct D as [D|[D|(D1 & D2)]].
    + apply step_nan in Es as (Hl & ->); auto.
    + apply step_nan in Es as (Hl & ->); auto.
    + destruct Hex as [Hex|Hex]; [now elim D1|].
      assert (F : forall k, 0 <= k < i + 1 -> ~ hole buffer k). { intros k Hk. destruct (Z.eq_dec k i) as [->|]; auto. apply Hex. lia. }
      split; [now right|]. destruct (step_moves _ _ _ _ _ _ _ _ _ _ _ _ _ _ _ _ _ _ Es) as [->|(-> & Hm)]; auto. right. split; [lia|]. split; [lia|]. intros k Hk Hk'. apply F. lia.
  - split; [lia|]. split; [right; lia|auto].
Qed.

Section Free.
Context (whole : list (num F64)) (m epoch : Z).
(** No such number from the start of the chunk in which the window at [loc] is searched to the end of the window. *)
Definition free (loc : Z) : Prop := forall k, loc / (epoch - m + 1) * (epoch - m + 1) <= k < loc + m -> ~ hole whole k.
Lemma get_slice {A} (l : list A) s n k : 0 <= s -> 0 <= k < zlen (zslice l s n) -> zget (zslice l s n) k = zget l (s + k).
Proof.
  intros Hs Hk. unfold zslice in *. unfold zget. destruct (Z.ltb_spec k 0); [lia|]. destruct (Z.ltb_spec (s + k) 0); [lia|].
  assert (Hn : (Z.to_nat k < Z.to_nat n)%nat) by (unfold zlen in Hk; rewrite firstn_length in Hk; lia).
  assert (X : forall (v : list A) a b, (b < a)%nat -> nth_error (firstn a v) b = nth_error v b). { intros v a. revert v. induction a as [|a IH]; intros [|x v] [|b] H1; cbn; auto; try lia. apply IH. lia. }
  rewrite X by auto. assert (Y : forall (v : list A) a b, nth_error (skipn a v) b = nth_error v (a + b)). { intros v a. revert v. induction a as [|a IH]; intros [|x v] b; cbn; auto. now destruct b. }
  rewrite Y. replace (Z.to_nat (s + k)) with (Z.to_nat s + Z.to_nat k)%nat by lia. reflexivity.
Qed.

Definition sound (b : best F64) : Prop := (b_bsf F64 b = big F64 /\ b_loc F64 b = 0) \/ free (b_loc F64 b).
Lemma chunks_free qy (r : Z) : 1 <= m <= epoch -> forall fuel it xs d (buffer t : list (num F64)) w b fo,
  let base := it * (epoch - m + 1) in
  0 <= it -> ((it = 0 /\ xs = whole) \/ (0 < it /\ xs = skipn (Z.to_nat (base + (m - 1))) whole /\ zslice buffer (epoch - m + 1) (m - 1) = zslice whole base (m - 1))) ->
  sound b -> chunks F64 fuel epoch qy m r it (mkNFile F64 xs false) d buffer t w b = Ok fo -> sound (mkBest F64 (fo_bsf F64 fo) (fo_loc F64 fo)).
Proof.
  intros Hm. induction fuel as [|fuel IH]; intros it xs d buffer t w b fo base Hit Hfile Hb E; cbn [chunks] in E; [discriminate|].
  assert (Hb0 : 0 <= base) by (unfold base; nia).
  set (rest := skipn (Z.to_nat (base + (m - 1))) whole).
  assert (Hh : exists d', (if it =? 0 then read_n F64 (Z.to_nat (m - 1)) (mkNFile F64 xs false) d else Ok (zslice buffer (epoch - m + 1) (m - 1), mkNFile F64 xs false, d)) = Ok (zslice whole base (m - 1), mkNFile F64 rest false, d')).
  { destruct Hfile as [(-> & ->)|(Hi & -> & Eh)].
    - destruct (read_n_any F64 (Z.to_nat (m - 1)) whole d) as (d' & E1). exists d'. cbn [Z.eqb]. rewrite E1. reflexivity.
    - exists d. destruct (Z.eqb_spec it 0); [lia|]. now rewrite Eh. }
  destruct Hh as (d1 & E1). rewrite E1 in E. cbn [bind] in E. destruct (epoch <? zlen (zslice whole base (m - 1))); [discriminate|].
  destruct (read_n_any F64 (Z.to_nat (epoch - (m - 1))) rest d1) as (d2 & E2). rewrite E2 in E. cbn [bind] in E. fold base in E.
  change (firstn (Z.to_nat (epoch - (m - 1))) rest) with (zslice whole (base + (m - 1)) (epoch - (m - 1))) in E.
  assert (EB : zslice whole base (m - 1) ++ zslice whole (base + (m - 1)) (epoch - (m - 1)) = zslice whole base epoch) by (rewrite SearchProofs.zslice_split by lia; f_equal; lia).
  rewrite EB in E. destruct (zlen (zslice whole (base + (m - 1)) (epoch - (m - 1))) =? 0); [injection E as <-; destruct b; exact Hb|].
  apply bind_Ok_inv in E as (((t1 & w1) & b1) & Ec & E).
  assert (Hb1 : sound b1).
  { apply chunk_free in Ec as [->|(A1 & A2 & A3)]; auto. right.
    assert (LB : zlen (zslice whole base epoch) <= epoch) by (unfold zslice, zlen; rewrite firstn_length; lia).
    assert (Ej : b_loc F64 b1 / (epoch - m + 1) = it) by (symmetry; apply (Z.div_unique _ _ it (b_loc F64 b1 - base)); [left|]; unfold base in *; lia).
    intros k Hk. rewrite Ej in Hk. fold base in Hk. replace k with (base + (k - base)) by lia. unfold hole. rewrite <- (get_slice whole base epoch) by lia. apply A3; lia. }
  destruct (_ <? epoch); [injection E as <-; destruct b1; exact Hb1|].
  assert (Eb : (it + 1) * (epoch - m + 1) = base + (epoch - m + 1)) by (unfold base; lia).
  apply IH in E; auto; [lia|]. right. rewrite Eb. split; [lia|]. split.
  - unfold rest. rewrite SearchProofs.skipn_skipn. f_equal. lia.
  - rewrite SearchProofs.zslice_sub by lia. f_equal; lia.
Qed.
End Free.
