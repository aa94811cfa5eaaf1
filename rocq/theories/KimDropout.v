(** * The Kim bound (Distance.cpp:138-194) with a dropout, in any arithmetic with the cost laws. *)
From Coq Require Import ZArith Bool Lia.
From Coq Require Import List.
From Verif Require Import Outcome Num Lemire Distance Laws Spec DtwProofs.
Import ListNotations.
Open Scope Z_scope.

Section Drop.
Context (N : NumOps) (dat pos : num N -> Prop) (L : CostLaws N dat pos).
Local Notation T := (num N).
Context (d : T).
Context (Hlt : forall x y : T, pos x -> pos y -> le N x y -> nltb N d x = true -> nltb N y d = false).
Context (Hle : forall x y : T, pos x -> pos y -> le N x y -> nleb N d x = true -> nltb N y d = false).
Context (Hinf : forall x : T, pos x -> nleb N (ninf N) x = true -> x = ninf N).
Context (a b : list T) (Ha : Forall dat a) (Hb : Forall dat b).
Local Notation m := (zlen a).
Local Notation n := (zlen b).
Local Notation c i j := (sqd N (at_ N a i) (at_ N b j)).

Lemma term_Ok i j : 0 <= i < m -> 0 <= j < n ->
  (ai <- ts_at N a i ;; bj <- ts_at N b j ;; Ok (sqd N ai bj)) = Ok (c i j).
Proof. intros Hi Hj. now rewrite (ts_at_Ok N a i Hi), (ts_at_Ok N b j Hj). Qed.
Lemma term_pos i j : 0 <= i < m -> 0 <= j < n -> pos (c i j).
Proof. intros. apply (c_sqd_pos _ _ _ L); apply (at_dat N dat); auto. Qed.

Lemma kim_dropout : 3 <= m -> 3 <= n ->
  exists k, pos k /\ kimLowerBound N a b (ninf N) = Ok k /\
    (kimLowerBound N a b d = Ok k \/ (kimLowerBound N a b d = Ok (ninf N) /\ nltb N k d = false)).
Proof.
  intros Hm Hn. unfold kimLowerBound. cbv zeta.
  destruct (Z.eqb_spec (Z.min m n) 0) as [Q|_]; [lia|]. destruct (Z.eqb_spec (Z.min m n) 1) as [Q|_]; [lia|].
  rewrite (term_Ok 0 0), (term_Ok (m - 1) (n - 1)), (term_Ok 0 1), (term_Ok 1 1), (term_Ok 1 0), (term_Ok (m - 1) (n - 2)),
    (term_Ok (m - 2) (n - 2)), (term_Ok (m - 2) (n - 1)), (term_Ok 0 2), (term_Ok 1 2), (term_Ok 2 2), (term_Ok 2 1), (term_Ok 2 0),
    (term_Ok (m - 1) (n - 3)), (term_Ok (m - 2) (n - 3)), (term_Ok (m - 3) (n - 3)), (term_Ok (m - 3) (n - 2)), (term_Ok (m - 3) (n - 1)) by lia.
  cbn [bind].
  assert (P00 := term_pos 0 0 ltac:(lia) ltac:(lia)). assert (Pe := term_pos (m - 1) (n - 1) ltac:(lia) ltac:(lia)).
  assert (O := c_pos_ord _ _ _ L).
  set (s2 := nadd N (nadd N (nzero N) (c 0 0)) (c (m - 1) (n - 1))).
  set (t3 := smin N (smin N (c 0 1) (c 1 1)) (c 1 0)).
  set (t4 := smin N (smin N (c (m - 1) (n - 2)) (c (m - 2) (n - 2))) (c (m - 2) (n - 1))).
  set (t5 := smin N (smin N (smin N (c 0 2) (c 1 2)) (smin N (c 2 2) (c 2 1))) (c 2 0)).
  set (t6 := smin N (smin N (smin N (c (m - 1) (n - 3)) (c (m - 2) (n - 3))) (smin N (c (m - 3) (n - 3)) (c (m - 3) (n - 2)))) (c (m - 3) (n - 1))).
  assert (P2 : pos s2) by (unfold s2; repeat apply (c_add_pos _ _ _ L); auto using (c_pos_0 _ _ _ L)).
  assert (Q3 : pos t3) by (unfold t3; repeat apply (smin_ok N pos); apply term_pos; lia).
  assert (Q4 : pos t4) by (unfold t4; repeat apply (smin_ok N pos); apply term_pos; lia).
  assert (Q5 : pos t5) by (unfold t5; repeat apply (smin_ok N pos); apply term_pos; lia).
  assert (Q6 : pos t6) by (unfold t6; repeat apply (smin_ok N pos); apply term_pos; lia).
  clearbody s2 t3 t4 t5 t6. clear P00 Pe.
  set (s3 := nadd N s2 t3). set (s4 := nadd N s3 t4). set (s5 := nadd N s4 t5). set (s6 := nadd N s5 t6).
  assert (P3 : pos s3) by now apply (c_add_pos _ _ _ L).
  assert (P4 : pos s4) by now apply (c_add_pos _ _ _ L).
  assert (P5 : pos s5) by now apply (c_add_pos _ _ _ L).
  assert (P6 : pos s6) by now apply (c_add_pos _ _ _ L).
  assert (L23 : le N s2 s3) by (eapply (add_le_l N dat pos L); auto).
  assert (L34 : le N s3 s4) by (eapply (add_le_l N dat pos L); auto).
  assert (L45 : le N s4 s5) by (eapply (add_le_l N dat pos L); auto).
  assert (L56 : le N s5 s6) by (eapply (add_le_l N dat pos L); auto).
  assert (L24 : le N s2 s4) by (apply (ord_trans _ _ O) with s3; auto).
  assert (L46 : le N s4 s6) by (apply (ord_trans _ _ O) with s5; auto).
  assert (L36 : le N s3 s6) by (apply (ord_trans _ _ O) with s4; auto).
  assert (L26 : le N s2 s6) by (apply (ord_trans _ _ O) with s4; auto).
  set (k := if Z.min m n =? 4 then s4 else s6).
  assert (Pk : pos k) by (unfold k; destruct (Z.min m n =? 4); auto).
  assert (L2k : le N s2 k) by (unfold k; destruct (Z.min m n =? 4); auto).
  assert (L3k : le N s3 k) by (unfold k; destruct (Z.min m n =? 4); auto).
  assert (L4k : le N s4 k) by (unfold k; destruct (Z.min m n =? 4); auto using (le_refl N pos O)).
  exists k. split; [exact Pk|]. split.
  - rewrite (c_le_inf _ _ _ L s2), (c_le_inf _ _ _ L s3) by auto.
    destruct (nleb N (ninf N) s4) eqn:E.
    + apply Hinf in E; auto. rewrite E in L4k. now rewrite (inf_max N dat pos L k Pk L4k).
    + unfold k. destruct (Z.min m n =? 4); [reflexivity|]. now rewrite (c_le_inf _ _ _ L s5).
  - destruct (nltb N d s2) eqn:E2; [right; split; [reflexivity|now apply (Hlt s2)]|].
    destruct (nltb N d s3) eqn:E3; [right; split; [reflexivity|now apply (Hlt s3)]|].
    destruct (nleb N d s4) eqn:E4; [right; split; [reflexivity|now apply (Hle s4)]|].
    unfold k. destruct (Z.min m n =? 4); [now left|].
    destruct (nltb N d s5) eqn:E5; [right; split; [reflexivity|now apply (Hlt s5)]|]. now left.
Qed.
End Drop.
