(** * Outcomes of C++ functions, arrays, loops.

    Not a model of a particular file: this is the vocabulary in which the C++ functions are
    transcribed.  A C++ function is a total Gallina function returning an [outcome]. *)
From Coq Require Import ZArith String Bool Lia List.
Import ListNotations.
Open Scope Z_scope.

(** C++ exceptions.  [OnexExn] is onex::OnexException (src/Exception.hpp:9-14); [LogicExn] stands
    for the standard exceptions derived from std::logic_error (invalid_argument, out_of_range,
    length_error); [OtherExn] for any other exception type. *)
Inductive exn : Type :=
| OnexExn (msg : string)
| LogicExn (kind : string)
| OtherExn (kind : string).

(** Kinds of undefined behaviour. *)
Inductive ub : Type :=
| OutOfBounds   (* array access outside its bounds *)
| UseAfterFree  (* access through a pointer to freed memory *)
| NullDeref     (* access through a null pointer *)
| Uninit        (* use of an indeterminate value *)
| BadConv       (* floating to int conversion out of range *)
| DivZero       (* integer division by zero *)
| IntOverflow   (* signed integer overflow; only in the checked models Ints.v and Search32.v *)
| BadDelete.    (* [delete] of an array that was allocated with [new[]] *)

(** Result of running a C++ function.  [NoFuel]: an unbounded loop made more iterations than any
    terminating run can make (endless loop). *)
Inductive outcome (A : Type) : Type :=
| Ok (a : A)
| Throw (e : exn)
| UB (u : ub)
| NoFuel.
Arguments Ok {A} a.
Arguments Throw {A} e.
Arguments UB {A} u.
Arguments NoFuel {A}.

Definition bind {A B} (o : outcome A) (k : A -> outcome B) : outcome B :=
  match o with
  | Ok a => k a
  | Throw e => Throw e
  | UB u => UB u
  | NoFuel => NoFuel
  end.

Notation "x <- e ;; k" := (bind e (fun x => k))
  (at level 61, e at next level, right associativity).
Notation "' p <- e ;; k" := (bind e (fun p => k))
  (at level 61, p pattern, e at next level, right associativity).

(** ** Weakest preconditions: [wp o Q E] says that [o] is [Ok a] with [Q a] or an exception [e]
    with [E e]; in particular neither undefined behaviour nor an endless loop. *)
Definition wp {A} (o : outcome A) (Q : A -> Prop) (E : exn -> Prop) : Prop :=
  match o with
  | Ok a => Q a
  | Throw e => E e
  | UB _ => False
  | NoFuel => False
  end.

(** [Post o Q]: [o] returns normally with a value satisfying [Q]. *)
Definition Post {A} (o : outcome A) (Q : A -> Prop) : Prop := wp o Q (fun _ => False).

(** No undefined behaviour and no endless loop. *)
Definition Defined {A} (o : outcome A) : Prop := wp o (fun _ => True) (fun _ => True).

Lemma Post_Ok {A} (a : A) (Q : A -> Prop) : Q a -> Post (Ok a) Q.
Proof. intro H; exact H. Qed.

Lemma Post_inv {A} (o : outcome A) (Q : A -> Prop) : Post o Q -> exists a, o = Ok a /\ Q a.
Proof. destruct o; cbn; try contradiction. eauto. Qed.

Lemma Post_intro {A} (o : outcome A) (Q : A -> Prop) a : o = Ok a -> Q a -> Post o Q.
Proof. intros -> H; exact H. Qed.

Lemma Post_bind {A B} (o : outcome A) (k : A -> outcome B) (Q : B -> Prop) :
  Post o (fun a => Post (k a) Q) -> Post (bind o k) Q.
Proof. destruct o; cbn; auto. Qed.

Lemma Post_conseq {A} (o : outcome A) (Q Q' : A -> Prop) :
  Post o Q -> (forall a, Q a -> Q' a) -> Post o Q'.
Proof. destruct o; cbn; auto. Qed.

Lemma Post_seq {A B} (P : A -> Prop) (o : outcome A) (k : A -> outcome B) (Q : B -> Prop) :
  Post o P -> (forall a, P a -> Post (k a) Q) -> Post (bind o k) Q.
Proof. destruct o; cbn; auto. Qed.

Lemma wp_conseq {A} (o : outcome A) (Q Q' : A -> Prop) (E E' : exn -> Prop) :
  wp o Q E -> (forall a, Q a -> Q' a) -> (forall e, E e -> E' e) -> wp o Q' E'.
Proof. destruct o; cbn; auto. Qed.

Lemma wp_bind {A B} (o : outcome A) (k : A -> outcome B) (Q : B -> Prop) (E : exn -> Prop) :
  wp o (fun a => wp (k a) Q E) E -> wp (bind o k) Q E.
Proof. destruct o; cbn; auto. Qed.

Lemma bind_Ok_inv {A B} (o : outcome A) (k : A -> outcome B) b :
  bind o k = Ok b -> exists a, o = Ok a /\ k a = Ok b.
Proof. destruct o; cbn; try discriminate. eauto. Qed.

(** ** Arrays: lists indexed by [Z]. *)
Definition zlen {A} (l : list A) : Z := Z.of_nat (length l).

(** [l[i]]; outside the bounds it is undefined behaviour. *)
Definition zget {A} (l : list A) (i : Z) : outcome A :=
  if i <? 0 then UB OutOfBounds
  else match nth_error l (Z.to_nat i) with
       | Some x => Ok x
       | None => UB OutOfBounds
       end.

Fixpoint list_set {A} (l : list A) (n : nat) (v : A) : list A :=
  match l, n with
  | [], _ => []
  | _ :: l', O => v :: l'
  | x :: l', S n' => x :: list_set l' n' v
  end.

(** [l[i] = v]. *)
Definition zset {A} (l : list A) (i : Z) (v : A) : outcome (list A) :=
  if (i <? 0) || (zlen l <=? i) then UB OutOfBounds
  else Ok (list_set l (Z.to_nat i) v).

Definition zrepeat {A} (v : A) (n : Z) : list A := repeat v (Z.to_nat n).

(** The elements at positions [start .. start+len-1]. *)
Definition zslice {A} (l : list A) (start len : Z) : list A :=
  firstn (Z.to_nat len) (skipn (Z.to_nat start) l).

(** ** Loops. *)

(** [for (int i = lo; i < hi; i++) body] with no break. *)
Fixpoint loop {S} (n : nat) (i : Z) (body : Z -> S -> outcome S) (s : S) : outcome S :=
  match n with
  | O => Ok s
  | Datatypes.S n' => s' <- body i s ;; loop n' (i + 1) body s'
  end.

Definition for_ {S} (lo hi : Z) (body : Z -> S -> outcome S) (s : S) : outcome S :=
  loop (Z.to_nat (hi - lo)) lo body s.

(** A loop body that may [break]. *)
Inductive ctl (S : Type) := Next (s : S) | Break (s : S).
Arguments Next {S} s.
Arguments Break {S} s.

Fixpoint loopb {S} (n : nat) (i : Z) (body : Z -> S -> outcome (ctl S)) (s : S) : outcome S :=
  match n with
  | O => Ok s
  | Datatypes.S n' =>
      c <- body i s ;;
      match c with
      | Next s' => loopb n' (i + 1) body s'
      | Break s' => Ok s'
      end
  end.

Definition forb {S} (lo hi : Z) (body : Z -> S -> outcome (ctl S)) (s : S) : outcome S :=
  loopb (Z.to_nat (hi - lo)) lo body s.

(** [while (cond) body] with at most [fuel] iterations. *)
Fixpoint while_ {S} (fuel : nat) (cond : S -> outcome bool) (body : S -> outcome S) (s : S)
  : outcome S :=
  b <- cond s ;;
  if b : bool then
    match fuel with
    | O => NoFuel
    | Datatypes.S f => s' <- body s ;; while_ f cond body s'
    end
  else Ok s.

(** Iteration over the elements of a list. *)
Fixpoint for_each {A S} (l : list A) (body : A -> S -> outcome S) (s : S) : outcome S :=
  match l with
  | [] => Ok s
  | a :: l' => s' <- body a s ;; for_each l' body s'
  end.

(** ** Rules. *)
Lemma loop_rule {S} (I : Z -> S -> Prop) (body : Z -> S -> outcome S) n : forall i s,
  I i s ->
  (forall j t, i <= j < i + Z.of_nat n -> I j t -> Post (body j t) (I (j + 1))) ->
  Post (loop n i body s) (I (i + Z.of_nat n)).
Proof.
  induction n as [|n IH]; intros i s HI Hb; cbn [loop].
  - rewrite Z.add_0_r. exact HI.
  - apply Post_bind. eapply Post_conseq; [apply Hb; [lia|exact HI]|].
    intros t Ht. replace (i + Z.of_nat (Datatypes.S n)) with (i + 1 + Z.of_nat n) by lia.
    apply IH; auto. intros j u Hj. apply Hb. lia.
Qed.

Lemma for_rule {S} (I : Z -> S -> Prop) lo hi (body : Z -> S -> outcome S) s :
  I lo s ->
  (forall j t, lo <= j < hi -> I j t -> Post (body j t) (I (j + 1))) ->
  Post (for_ lo hi body s) (I (Z.max lo hi)).
Proof.
  intros HI Hb. unfold for_.
  replace (Z.max lo hi) with (lo + Z.of_nat (Z.to_nat (hi - lo))) by lia.
  apply loop_rule; auto. intros j t Hj. apply Hb. lia.
Qed.

Lemma for_rule_wp {S} (I : Z -> S -> Prop) (E : exn -> Prop) lo hi (body : Z -> S -> outcome S) s :
  I lo s ->
  (forall j t, lo <= j < hi -> I j t -> wp (body j t) (I (j + 1)) E) ->
  wp (for_ lo hi body s) (I (Z.max lo hi)) E.
Proof.
  unfold for_. intros HI Hb.
  replace (Z.max lo hi) with (lo + Z.of_nat (Z.to_nat (hi - lo))) by lia.
  assert (Hb' : forall j t, lo <= j < lo + Z.of_nat (Z.to_nat (hi - lo)) -> I j t ->
                            wp (body j t) (I (j + 1)) E) by (intros; apply Hb; [lia|auto]).
  clear Hb. revert Hb'. generalize (Z.to_nat (hi - lo)) as n. intros n. revert lo s HI.
  induction n as [|n IH]; intros i t HI Hb; cbn [loop].
  - rewrite Z.add_0_r. exact HI.
  - apply wp_bind. eapply wp_conseq; [apply Hb; [lia|exact HI]| |auto].
    intros u Hu. replace (i + Z.of_nat (Datatypes.S n)) with (i + 1 + Z.of_nat n) by lia.
    apply IH; auto. intros j v Hj. apply Hb. lia.
Qed.

(** Loops with break: [I] is the invariant at the loop head, [B] holds after a break. *)
Lemma forb_rule {S} (I : Z -> S -> Prop) (B : S -> Prop) lo hi
      (body : Z -> S -> outcome (ctl S)) s :
  I lo s ->
  (forall j t, lo <= j < hi -> I j t ->
     Post (body j t) (fun c => match c with Next t' => I (j + 1) t' | Break t' => B t' end)) ->
  Post (forb lo hi body s) (fun t => I (Z.max lo hi) t \/ B t).
Proof.
  unfold forb. intros HI Hb.
  replace (Z.max lo hi) with (lo + Z.of_nat (Z.to_nat (hi - lo))) by lia.
  assert (Hb' : forall j t, lo <= j < lo + Z.of_nat (Z.to_nat (hi - lo)) -> I j t ->
     Post (body j t) (fun c => match c with Next t' => I (j + 1) t' | Break t' => B t' end))
    by (intros; apply Hb; [lia|auto]).
  clear Hb. revert Hb'. generalize (Z.to_nat (hi - lo)) as n. intros n. revert lo s HI.
  induction n as [|n IH]; intros i t HI Hb; cbn [loopb].
  - left. rewrite Z.add_0_r. exact HI.
  - apply Post_bind. eapply Post_conseq; [apply Hb; [lia|exact HI]|].
    intros [u|u] Hu.
    + replace (i + Z.of_nat (Datatypes.S n)) with (i + 1 + Z.of_nat n) by lia.
      apply IH; auto. intros j v Hj. apply Hb. lia.
    + right. exact Hu.
Qed.

Lemma while_rule {S} (I : S -> Prop) (m : S -> nat) cond (body : S -> outcome S) : forall fuel s,
  I s -> (m s <= fuel)%nat ->
  (forall t, I t -> Post (cond t) (fun b => b = true ->
        Post (body t) (fun t' => I t' /\ (m t' < m t)%nat))) ->
  Post (while_ fuel cond body s) (fun t => I t /\ cond t = Ok false).
Proof.
  induction fuel as [|fuel IH]; intros s HI Hm Hb; cbn [while_]; apply Post_bind.
  - destruct (Post_inv _ _ (Hb s HI)) as ([] & Hc & Hb'); rewrite Hc; cbn.
    + specialize (Hb' eq_refl). destruct (Post_inv _ _ Hb') as (t' & _ & _ & Hlt). lia.
    + auto.
  - destruct (Post_inv _ _ (Hb s HI)) as ([] & Hc & Hb'); rewrite Hc; cbn.
    + apply Post_bind. eapply Post_conseq; [exact (Hb' eq_refl)|].
      intros t' (HI' & Hlt). apply IH; auto. lia.
    + auto.
Qed.

Lemma for_each_rule {A S} (I : list A -> S -> Prop) (body : A -> S -> outcome S) :
  forall l done s,
  I done s ->
  (forall pre a post t, l = pre ++ a :: post -> I (done ++ pre) t ->
      Post (body a t) (I (done ++ pre ++ [a]))) ->
  Post (for_each l body s) (I (done ++ l)).
Proof.
  induction l as [|a l IH]; intros done s HI Hb; cbn [for_each].
  - rewrite app_nil_r. exact HI.
  - apply Post_bind. eapply Post_conseq.
    + apply (Hb [] a l s eq_refl). rewrite app_nil_r. exact HI.
    + intros t Ht. cbn in Ht.
      replace (done ++ a :: l) with ((done ++ [a]) ++ l) by (rewrite <- app_assoc; reflexivity).
      apply IH; auto. intros pre b post u Hl Hu.
      specialize (Hb (a :: pre) b post u). rewrite <- app_assoc in *. cbn in *.
      rewrite Hl in Hb. auto.
Qed.

(** ** Array lemmas. *)
Lemma zlen_nonneg {A} (l : list A) : 0 <= zlen l.
Proof. unfold zlen; lia. Qed.

Lemma zget_Ok {A} (l : list A) i : 0 <= i < zlen l -> exists x, zget l i = Ok x.
Proof.
  unfold zget, zlen. intros H.
  destruct (i <? 0) eqn:E; [lia|].
  destruct (nth_error l (Z.to_nat i)) eqn:N; eauto.
  apply nth_error_None in N. lia.
Qed.

Lemma zget_nth {A} (l : list A) i d : 0 <= i < zlen l -> zget l i = Ok (nth (Z.to_nat i) l d).
Proof.
  unfold zget, zlen. intros H.
  destruct (i <? 0) eqn:E; [lia|].
  rewrite (nth_error_nth' l d) by lia. reflexivity.
Qed.

Lemma zget_inv {A} (l : list A) i x : zget l i = Ok x ->
  0 <= i < zlen l /\ nth_error l (Z.to_nat i) = Some x.
Proof.
  unfold zget, zlen. destruct (i <? 0) eqn:E; [discriminate|].
  destruct (nth_error l (Z.to_nat i)) eqn:N; [|discriminate].
  intros H; inversion H; subst. split; auto.
  assert (Z.to_nat i < length l)%nat by (apply nth_error_Some; congruence). lia.
Qed.

Lemma list_set_length {A} (l : list A) n v : length (list_set l n v) = length l.
Proof. revert n; induction l; destruct n; cbn; auto. Qed.

Lemma list_set_nth_error_eq {A} (l : list A) n v : (n < length l)%nat ->
  nth_error (list_set l n v) n = Some v.
Proof. revert n; induction l; destruct n; cbn; intros; try lia; auto. apply IHl; lia. Qed.

Lemma list_set_nth_error_neq {A} (l : list A) n k v : n <> k ->
  nth_error (list_set l n v) k = nth_error l k.
Proof. revert n k; induction l; destruct n, k; cbn; intros; try congruence; auto. Qed.

Lemma zset_Ok {A} (l : list A) i v : 0 <= i < zlen l ->
  zset l i v = Ok (list_set l (Z.to_nat i) v).
Proof.
  unfold zset. intros H. destruct (i <? 0) eqn:E1; [lia|].
  destruct (zlen l <=? i) eqn:E2; [lia|]. reflexivity.
Qed.

Lemma zset_inv {A} (l : list A) i v l' : zset l i v = Ok l' ->
  0 <= i < zlen l /\ l' = list_set l (Z.to_nat i) v.
Proof.
  unfold zset. destruct (i <? 0) eqn:E1; [discriminate|].
  destruct (zlen l <=? i) eqn:E2; [discriminate|]. cbn.
  intros H; inversion H; split; auto; lia.
Qed.

Lemma zset_len {A} (l : list A) i v l' : zset l i v = Ok l' -> zlen l' = zlen l.
Proof. intros H; apply zset_inv in H as (_ & ->). unfold zlen. now rewrite list_set_length. Qed.

Lemma zget_zset_eq {A} (l : list A) i v l' : zset l i v = Ok l' -> zget l' i = Ok v.
Proof.
  intros H. apply zset_inv in H as (H & ->). unfold zget.
  destruct (i <? 0) eqn:E; [lia|].
  rewrite list_set_nth_error_eq; auto. unfold zlen in H. lia.
Qed.

Lemma zget_zset_neq {A} (l : list A) i k v l' : zset l i v = Ok l' -> i <> k ->
  zget l' k = zget l k.
Proof.
  intros H Hk. apply zset_inv in H as (H & ->). unfold zget.
  destruct (k <? 0) eqn:E; auto.
  rewrite list_set_nth_error_neq; auto. lia.
Qed.

Lemma zlen_app {A} (l l' : list A) : zlen (l ++ l') = zlen l + zlen l'.
Proof. unfold zlen. rewrite app_length. lia. Qed.

Lemma zlen_cons {A} (x : A) l : zlen (x :: l) = 1 + zlen l.
Proof. unfold zlen. cbn [length]. lia. Qed.

Lemma zlen_nil {A} : zlen (@nil A) = 0.
Proof. reflexivity. Qed.

Lemma zlen_zrepeat {A} (v : A) n : 0 <= n -> zlen (zrepeat v n) = n.
Proof. intros. unfold zlen, zrepeat. rewrite repeat_length. lia. Qed.

Lemma zget_app_l {A} (l l' : list A) i : i < zlen l -> zget (l ++ l') i = zget l i.
Proof.
  intros H. unfold zget, zlen in *. destruct (i <? 0) eqn:E; auto.
  rewrite nth_error_app1; auto. lia.
Qed.

Lemma zget_app_r {A} (l l' : list A) i : zlen l <= i -> zget (l ++ l') i = zget l' (i - zlen l).
Proof.
  intros H. unfold zget, zlen in *. destruct (i <? 0) eqn:E; [lia|].
  destruct (i - Z.of_nat (length l) <? 0) eqn:E2; [lia|].
  rewrite nth_error_app2 by lia.
  replace (Z.to_nat i - length l)%nat with (Z.to_nat (i - Z.of_nat (length l))) by lia. reflexivity.
Qed.

Lemma zget_zrepeat {A} (v : A) n i : 0 <= i < n -> zget (zrepeat v n) i = Ok v.
Proof.
  intros H. rewrite (zget_nth _ _ v).
  - f_equal. unfold zrepeat. apply nth_repeat.
  - rewrite zlen_zrepeat; lia.
Qed.
