(** * Laws of the number operations used by the proofs (not a model of a file of /repo).

    Records of laws over [NumOps].  They are proved for binary64 (F64Laws.v) and for exact
    arithmetic (RXLaws.v); theorems of the Properties files are stated for those instances. *)
From Coq Require Import ZArith Bool Lia.
From Verif Require Import Outcome Num Lemire Distance.
Open Scope Z_scope.

Section Laws.
Context (N : NumOps).
Local Notation T := (num N).

Definition lt (x y : T) : Prop := nltb N x y = true.
(** [x <= y] as "not [y < x]". *)
Definition le (x y : T) : Prop := nltb N y x = false.

Record OrdLaws (ok : T -> Prop) : Prop := {
  ord_asym : forall x y, ok x -> ok y -> lt x y -> le x y;
  ord_trans : forall x y z, ok x -> ok y -> ok z -> le x y -> le y z -> le x z
}.

(** Lengths for which the integer arithmetic of the code does not overflow. *)
Definition klen (k : Z) : Prop := 1 <= k <= 2 ^ 30.

Record CostLaws (dat pos : T -> Prop) : Prop := {
  c_dat_ord : OrdLaws dat;
  c_pos_ord : OrdLaws pos;
  c_antisym : forall x y, pos x -> pos y -> le x y -> le y x -> x = y;
  c_pos_inf : pos (ninf N);
  c_le_inf : forall x, pos x -> le x (ninf N);
  c_pos_0 : pos (nzero N);
  c_0_le : forall x, pos x -> le (nzero N) x;
  c_0_lt_inf : lt (nzero N) (ninf N);
  c_sqd_pos : forall x y, dat x -> dat y -> pos (sqd N x y);
  c_sqd_sym : forall x y, dat x -> dat y -> sqd N x y = sqd N y x;
  c_sqd_diag : forall x, dat x -> sqd N x x = nzero N;
  c_sqd_up : forall b u c, dat b -> dat u -> dat c -> lt u b -> le c u ->
                           le (sqd N b u) (sqd N b c);
  c_sqd_dn : forall b l c, dat b -> dat l -> dat c -> lt b l -> le l c ->
                           le (sqd N b l) (sqd N b c);
  c_add_pos : forall x y, pos x -> pos y -> pos (nadd N x y);
  c_add_mono : forall x x' y y', pos x -> pos x' -> pos y -> pos y' -> le x x' -> le y y' ->
                                 le (nadd N x y) (nadd N x' y');
  c_0_add : forall x, pos x -> nadd N (nzero N) x = x;
  c_add_0 : forall x, pos x -> nadd N x (nzero N) = x;
  c_ndtw_pos : forall x k, klen k -> pos x -> pos (euc_norm_dtw N x k);
  c_ndtw_mono : forall x y k, klen k -> pos x -> pos y -> le x y ->
                              le (euc_norm_dtw N x k) (euc_norm_dtw N y k);
  c_ndtw_inf : forall k, klen k -> euc_norm_dtw N (ninf N) k = ninf N;
  c_ndtw_0 : forall k, klen k -> euc_norm_dtw N (nzero N) k = nzero N;
  c_ndtw_fin : forall x k, klen k -> pos x -> lt x (ninf N) -> lt (euc_norm_dtw N x k) (ninf N);
  c_norm_pos : forall x k, klen k -> pos x -> pos (euc_norm N x k);
  c_norm_mono : forall x y k, klen k -> pos x -> pos y -> le x y ->
                              le (euc_norm N x k) (euc_norm N y k);
  c_norm_inf : forall k, klen k -> euc_norm N (ninf N) k = ninf N;
  c_norm_0 : forall k, klen k -> euc_norm N (nzero N) k = nzero N;
  c_norm_fin : forall x k, klen k -> pos x -> lt x (ninf N) -> lt (euc_norm N x k) (ninf N);
  c_idtw_pos : forall d k, klen k -> pos d -> pos (euc_inorm_dtw N d k);
  c_idtw_inf : forall k, klen k -> euc_inorm_dtw N (ninf N) k = ninf N;
  c_inorm_pos : forall d k, klen k -> pos d -> pos (euc_inorm N d k);
  c_inorm_inf : forall k, klen k -> euc_inorm N (ninf N) k = ninf N
}.

(** Without rounding the squared dropout decides like the dropout itself. *)
Record ExactLaws (dat pos : T -> Prop) : Prop := {
  e_cost : CostLaws dat pos;
  e_dtw : forall d x k, klen k -> pos d -> pos x ->
            nltb N (euc_inorm_dtw N d k) x = nltb N d (euc_norm_dtw N x k);
  e_norm : forall d x k, klen k -> pos d -> pos x ->
            nltb N (euc_inorm N d k) x = nltb N d (euc_norm N x k)
}.
End Laws.

Section Derived.
Context (N : NumOps).
Local Notation T := (num N).
Local Notation lt := (lt N).
Local Notation le := (le N).

Section Ord.
Context (ok : T -> Prop) (L : OrdLaws N ok).

Lemma lt_le x y : ok x -> ok y -> lt x y -> le x y.
Proof. apply (ord_asym _ _ L). Qed.
Lemma le_refl x : ok x -> le x x.
Proof.
  intros H. destruct (nltb N x x) eqn:E; [|exact E].
  exact (ord_asym _ _ L x x H H E).
Qed.
Lemma le_total x y : ok x -> ok y -> le x y \/ le y x.
Proof.
  intros Hx Hy. destruct (nltb N y x) eqn:E; [right|left; exact E].
  apply lt_le; auto.
Qed.
Lemma lt_le_trans x y z : ok x -> ok y -> ok z -> lt x y -> le y z -> lt x z.
Proof.
  intros Hx Hy Hz A B. unfold Laws.lt. destruct (nltb N x z) eqn:E; auto.
  assert (le y x) by (apply (ord_trans _ _ L) with z; auto). unfold Laws.le, Laws.lt in *. congruence.
Qed.
Lemma le_lt_trans x y z : ok x -> ok y -> ok z -> le x y -> lt y z -> lt x z.
Proof.
  intros Hx Hy Hz A B. unfold Laws.lt. destruct (nltb N x z) eqn:E; auto.
  assert (le z y) by (apply (ord_trans _ _ L) with x; auto). unfold Laws.le, Laws.lt in *. congruence.
Qed.
Lemma lt_trans x y z : ok x -> ok y -> ok z -> lt x y -> lt y z -> lt x z.
Proof. intros Hx Hy Hz A B. apply lt_le_trans with y; auto. apply lt_le; auto. Qed.
Lemma lt_not_le x y : lt x y -> le y x -> False.
Proof. unfold Laws.lt, Laws.le. congruence. Qed.
Lemma not_lt_le x y : nltb N x y = false -> le y x.
Proof. auto. Qed.
Lemma le_or_lt x y : le x y \/ lt y x.
Proof. unfold Laws.le, Laws.lt. destruct (nltb N y x); auto. Qed.
Lemma smin_ok x y : ok x -> ok y -> ok (smin N x y).
Proof. unfold smin. destruct nltb; auto. Qed.
Lemma smin_le_l x y : ok x -> ok y -> le (smin N x y) x.
Proof. unfold smin. destruct (nltb N y x) eqn:E; intros; [apply lt_le|apply le_refl]; auto. Qed.
Lemma smin_le_r x y : ok x -> ok y -> le (smin N x y) y.
Proof. unfold smin. destruct (nltb N y x) eqn:E; intros; [apply le_refl|]; auto. Qed.
Lemma smin_cases x y : smin N x y = x \/ smin N x y = y.
Proof. unfold smin. destruct nltb; auto. Qed.
Lemma smax_ok x y : ok x -> ok y -> ok (smax N x y).
Proof. unfold smax. destruct nltb; auto. Qed.
Lemma smax_cases x y : smax N x y = x \/ smax N x y = y.
Proof. unfold smax. destruct nltb; auto. Qed.
End Ord.

Section Cost.
Context (dat pos : T -> Prop) (L : CostLaws N dat pos).
Let P := c_pos_ord _ _ _ L.

Lemma add_le_l x y : pos x -> pos y -> le x (nadd N x y).
Proof.
  intros Hx Hy. rewrite <- (c_add_0 _ _ _ L x) at 1 by auto.
  apply (c_add_mono _ _ _ L); auto using (c_pos_0 _ _ _ L), (c_0_le _ _ _ L).
  apply (le_refl pos P); auto.
Qed.
Lemma add_le_r x y : pos x -> pos y -> le y (nadd N x y).
Proof.
  intros Hx Hy. rewrite <- (c_0_add _ _ _ L y) at 1 by auto.
  apply (c_add_mono _ _ _ L); auto using (c_pos_0 _ _ _ L), (c_0_le _ _ _ L).
  apply (le_refl pos P); auto.
Qed.
Lemma inf_max x : pos x -> le (ninf N) x -> x = ninf N.
Proof.
  intros Hx H. apply (c_antisym _ _ _ L); auto using (c_pos_inf _ _ _ L), (c_le_inf _ _ _ L).
Qed.
Lemma inf_add_l y : pos y -> nadd N (ninf N) y = ninf N.
Proof.
  intros Hy. apply inf_max.
  - apply (c_add_pos _ _ _ L); auto using (c_pos_inf _ _ _ L).
  - apply add_le_l; auto using (c_pos_inf _ _ _ L).
Qed.
Lemma inf_add_r x : pos x -> nadd N x (ninf N) = ninf N.
Proof.
  intros Hy. apply inf_max.
  - apply (c_add_pos _ _ _ L); auto using (c_pos_inf _ _ _ L).
  - apply add_le_r; auto using (c_pos_inf _ _ _ L).
Qed.
Lemma le_0_eq x : pos x -> le x (nzero N) -> x = nzero N.
Proof.
  intros Hx H. apply (c_antisym _ _ _ L); auto using (c_pos_0 _ _ _ L), (c_0_le _ _ _ L).
Qed.
Lemma lt_inf_neq x : pos x -> x <> ninf N -> lt x (ninf N).
Proof.
  intros Hx Hn. destruct (le_or_lt (ninf N) x) as [H|H]; auto.
  elim Hn. now apply inf_max.
Qed.
Lemma lt_irrefl x : pos x -> lt x x -> False.
Proof. intros Hx H. apply (lt_not_le _ _ H). apply (le_refl pos P); auto. Qed.
End Cost.
End Derived.
