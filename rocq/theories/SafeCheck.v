(** * A program that decides (a part of) [fitting_file], to show that files of interest fit. *)
From Coq Require Import ZArith Bool Lia Reals Lra SpecFloat Ascii String List.
From Flocq Require Import Core BinarySingleNaN.
From Verif Require Import Outcome Num TimeSeries Text Dataset Groups Api F64Base Numeric DecSpec NumSpec GroupSpec GroupFileSpec.
From Verif Require Import DecProofs PrintProofs StreamProofs GroupProofs DigitsProofs GroupFileProofs Properties_GroupFile SafeSpec.
Import ListNotations.
Open Scope Z_scope.

Definition small_b (x : spec_float) : bool :=
  match x with
  | S754_zero _ => true
  | S754_finite _ m e => valid_binary prec64 emax64 x && (Z.log2 (Z.pos m) + 1 + e <=? 500)
  | _ => false
  end.
Lemma small_b_ok x : small_b x = true -> small64 x.
Proof.
  destruct x as [s| | |s m e]; cbn [small_b]; try discriminate.
  - intros _. split; [now split|]. cbn [val]. rewrite Rabs_R0. apply bpow_ge_0.
  - intros H. apply andb_true_iff in H as (H1 & H2). apply Z.leb_le in H2. split; [split; [exact H1|exact I]|].
    cbn [val]. unfold F2R, Fnum, Fexp. rewrite Rabs_mult, (Rabs_pos_eq (bpow radix2 e)) by apply bpow_ge_0. rewrite <- abs_IZR.
    replace (Z.abs (cond_Zopp s (Z.pos m))) with (Z.pos m) by (destruct s; reflexivity).
    apply Rle_trans with (bpow radix2 (Z.log2 (Z.pos m) + 1) * bpow radix2 e)%R.
    + apply Rmult_le_compat_r; [apply bpow_ge_0|]. pose proof (Z.log2_spec (Z.pos m) ltac:(lia)) as (_ & Hl). pose proof (Z.log2_nonneg (Z.pos m)).
      rewrite <- (IZR_Zpower radix2) by lia. apply IZR_le. unfold radix2. cbn [radix_val]. change (Z.succ (Z.log2 (Z.pos m))) with (Z.log2 (Z.pos m) + 1) in Hl. lia.
    + rewrite <- bpow_plus. apply bpow_le. lia.
Qed.
Definition fin_b (x : spec_float) : bool := valid_binary prec64 emax64 x && match x with S754_zero _ | S754_finite _ _ _ => true | _ => false end.
Lemma fin_b_ok x : fin_b x = true -> fin64 x.
Proof. intros H. apply andb_true_iff in H as (H1 & H2). split; auto. now destruct x. Qed.
Lemma small_prints x : small64 x -> prints 16 x.
Proof.
  intros (F & B). apply prints_16; auto. apply Rle_trans with (1 := B). change (IZR (Zpower radix2 500) <= DMAX16)%R. unfold DMAX16.
  apply IZR_le. vm_compute. discriminate.
Qed.
(** The 16 digits of a value up to 2^499 read as a value up to 2^500. *)
Lemma reread_small x y : fin64 x -> (Rabs (val x) <= bpow radix2 499)%R -> reread 16 x y -> small64 y.
Proof.
  intros F B (Fy & Vy & _). split; auto. rewrite Vy. apply rnd_abs_le; [lia|].
  pose proof (round10_nearest 16 (val x) 0 ltac:(lia) (generic_format_0 _ _)) as H.
  rewrite Rminus_0_l, Rabs_Ropp in H. change 500 with (499 + 1). rewrite bpow_plus. change (bpow radix2 1) with 2%R.
  replace (round10 16 (val x)) with ((round10 16 (val x) - val x) + val x)%R by ring.
  apply Rle_trans with (1 := Rabs_triang _ _). lra.
Qed.

Definition text_eqb (a b : text) : bool := if list_eq_dec ascii_dec a b then true else false.
Lemma text_eqb_ok a b : text_eqb a b = true -> a = b.
Proof. unfold text_eqb. destruct (list_eq_dec ascii_dec a b); congruence. Qed.

Definition p_int (t : text) : option (Z * text) :=
  let '(z, _, _) := conv_int (word1 t) in
  if text_eqb (print_Z z) (word1 t) && ((- 2 ^ 31 <=? z) && (z <? 2 ^ 31)) then Some (z, rest1 t) else None.
Lemma p_int_ok t z r : p_int t = Some (z, r) -> first_int t z r.
Proof.
  unfold p_int. destruct (conv_int (word1 t)) as ((z' & ?) & ?). destruct (_ && _) eqn:E; [|discriminate]. intros [= -> <-].
  apply andb_true_iff in E as (E & R). apply andb_true_iff in R. apply fi_dec; [now apply text_eqb_ok|lia].
Qed.
Definition p_dbl (t : text) : option (spec_float * text) :=
  let '(x, _, _) := conv_double (word1 t) in
  if small_b x && text_eqb (print_g 16 x) (word1 t) && match rest1 t with [] => false | _ => small_b (rr x) end then Some (rr x, rest1 t) else None.
Lemma p_dbl_ok t y r : p_dbl t = Some (y, r) -> first_double t y r /\ small64 y.
Proof.
  unfold p_dbl. destruct (conv_double (word1 t)) as ((x & ?) & ?). destruct (_ && _) eqn:E; [|discriminate]. intros [= <- <-].
  apply andb_true_iff in E as (E & H3). apply andb_true_iff in E as (H1 & H2). apply small_b_ok in H1. apply text_eqb_ok in H2.
  split; [apply rd_dec; auto; [now apply small_prints|]|]; destruct (rest1 t); try discriminate; auto. now apply small_b_ok.
Qed.
Definition p_thr (t : text) : option text :=
  let '(x, _, _) := conv_double (word1 t) in
  if fin_b x && text_eqb (print_g 6 x) (word1 t) then match rest1 t with [] => None | r => Some r end else None.
Lemma p_thr_ok t r : p_thr t = Some r -> exists y, first_double t y r.
Proof.
  unfold p_thr. destruct (conv_double (word1 t)) as ((x & ?) & ?). destruct (_ && _) eqn:E; [|discriminate]. intros H.
  apply andb_true_iff in E as (H1 & H2). apply fin_b_ok in H1. apply text_eqb_ok in H2.
  assert (Hr : match rest1 t with [] => False | _ => True end) by (destruct (rest1 t); [discriminate|exact I]).
  destruct (fd_dec 6 t x ltac:(lia) (prints_6 x H1) H2 Hr) as (y & Hy & _). exists y. destruct (rest1 t); [discriminate|]. injection H as <-. exact Hy.
Qed.

Fixpoint p_many {A} (p : text -> option (A * text)) (n : nat) (t : text) : option (list A * text) :=
  match n with
  | O => Some ([], t)
  | S n => match p t with
           | Some (a, t) => match p_many p n t with Some (l, r) => Some (a :: l, r) | None => None end
           | None => None
           end
  end.
Lemma p_many_ok {A} (p : text -> option (A * text)) (R : text -> A -> text -> Prop) (Q : A -> Prop) :
  (forall t a r, p t = Some (a, r) -> R t a r /\ Q a) ->
  forall n t l r, p_many p n t = Some (l, r) -> reads R t l r /\ Forall Q l /\ List.length l = n.
Proof.
  intros H. induction n as [|n IH]; intros t l r E; cbn [p_many] in E; [injection E as <- ->; cbn; auto|].
  destruct (p t) as [(a & t1)|] eqn:Ea; [|discriminate]. destruct (p_many p n t1) as [(l1 & r1)|] eqn:El; [|discriminate].
  injection E as <- <-. apply H in Ea as (Ea & Qa). apply IH in El as (El & Ql & <-). cbn [reads List.length]. split; [eauto|]. split; auto.
Qed.
Definition p_coord (t : text) : option (coord * text) :=
  match p_int t with
  | Some (a, t) => match p_int t with Some (b, r) => Some ((a, b), r) | None => None end
  | None => None
  end.
Lemma p_coord_ok t c r : p_coord t = Some (c, r) -> reads_coord t c r /\ True.
Proof.
  unfold p_coord. destruct (p_int t) as [(a & t1)|] eqn:E1; [|discriminate]. destruct (p_int t1) as [(b & t2)|] eqn:E2; [|discriminate].
  intros [= <- <-]. split; auto. exists t1. split; now apply p_int_ok.
Qed.
Definition p_group (L : Z) (t : text) : option ((list spec_float * list coord) * text) :=
  match p_many p_dbl (Z.to_nat L) t with
  | Some (v, t) => match p_int t with
      | Some (n, t) => if n <? 0 then None else match p_many p_coord (Z.to_nat n) t with Some (cs, r) => Some ((v, cs), r) | None => None end
      | None => None end
  | None => None
  end.
Lemma p_group_ok L t g r : 0 <= L -> p_group L t = Some (g, r) -> reads_group t g r /\ (zlen (fst g) = L /\ Forall small64 (fst g)).
Proof.
  intros HL. unfold p_group. destruct (p_many p_dbl (Z.to_nat L) t) as [(v & t1)|] eqn:E1; [|discriminate].
  destruct (p_int t1) as [(n & t2)|] eqn:E2; [|discriminate]. destruct (Z.ltb_spec n 0); [discriminate|].
  destruct (p_many p_coord (Z.to_nat n) t2) as [(cs & t3)|] eqn:E3; [|discriminate]. intros [= <- <-].
  apply (p_many_ok _ first_double small64 p_dbl_ok) in E1 as (E1 & S1 & N1). apply p_int_ok in E2.
  apply (p_many_ok _ reads_coord (fun _ => True) p_coord_ok) in E3 as (E3 & _ & N3). cbn [fst]. split; [|split; auto; unfold zlen; lia].
  exists t1, t2. cbn [fst snd]. split; auto. split; auto. replace (zlen cs) with n by (unfold zlen; lia). exact E2.
Qed.
Fixpoint p_lengths (L : Z) (n : nat) (t : text) : option (list (list (list spec_float * list coord)) * text) :=
  match n with
  | O => Some ([], t)
  | S n => match p_int t with
      | Some (k, t) => if k <? 1 then None else match p_many (p_group L) (Z.to_nat k) t with
          | Some (gl, t) => match p_lengths (L + 1) n t with Some (l, r) => Some (gl :: l, r) | None => None end
          | None => None end
      | None => None end
  end.
Definition good_length (L : Z) (gl : list (list spec_float * list coord)) : Prop :=
  gl <> [] /\ forall v cs, In (v, cs) gl -> zlen v = L /\ Forall small64 v.
Lemma p_lengths_ok f n : forall k t l r, p_lengths (2 + Z.of_nat k) n t = Some (l, r) ->
  (forall j, (j < n)%nat -> f (2 + Z.of_nat (k + j)) = nth j l []) ->
  reads (reads_length f) t (map (fun k => 2 + Z.of_nat k) (seq k n)) r /\ forall j, (j < n)%nat -> good_length (2 + Z.of_nat (k + j)) (nth j l []).
Proof.
  induction n as [|n IH]; intros k t l r E Hf; cbn [p_lengths] in E; [injection E as <- ->; cbn; split; auto; intros; lia|].
  destruct (p_int t) as [(m & t1)|] eqn:E1; [|discriminate]. destruct (Z.ltb_spec m 1); [discriminate|].
  destruct (p_many (p_group (2 + Z.of_nat k)) (Z.to_nat m) t1) as [(gl & t2)|] eqn:E2; [|discriminate].
  destruct (p_lengths (2 + Z.of_nat k + 1) n t2) as [(l' & r')|] eqn:E3; [|discriminate]. injection E as <- <-.
  replace (2 + Z.of_nat k + 1) with (2 + Z.of_nat (S k)) in E3 by lia. apply IH in E3 as (E3 & G3).
  2: { intros j Hj. replace (S k + j)%nat with (k + S j)%nat by lia. rewrite Hf by lia. reflexivity. }
  apply (p_many_ok _ reads_group (fun g => zlen (fst g) = 2 + Z.of_nat k /\ Forall small64 (fst g)) (fun t a r => p_group_ok (2 + Z.of_nat k) t a r ltac:(lia))) in E2 as (E2 & S2 & N2).
  pose proof (Hf O ltac:(lia)) as F0. cbn [nth] in F0. rewrite Nat.add_0_r in F0. cbn [seq map reads]. split.
  - exists t2. split; auto. exists t1. rewrite F0. split; auto. replace (zlen gl) with m by (unfold zlen; lia). now apply p_int_ok.
  - intros [|j] Hj; cbn [nth].
    + rewrite Nat.add_0_r. split; [destruct gl; [cbn in N2; lia|discriminate]|]. intros v cs Hin. rewrite Forall_forall in S2. exact (S2 _ Hin).
    + replace (k + S j)%nat with (S k + j)%nat by lia. apply G3. lia.
Qed.

Definition pick (l : list (list (list spec_float * list coord))) (L : Z) : list (list spec_float * list coord) := nth (Z.to_nat (L - 2)) l [].
Fixpoint nodup_b (l : list coord) : bool :=
  match l with [] => true | c :: l => negb (existsb (fun c' => (fst c =? fst c') && (snd c =? snd c')) l) && nodup_b l end.
Lemma nodup_b_ok l : nodup_b l = true -> NoDup l.
Proof.
  induction l as [|c l IH]; cbn [nodup_b]; [constructor|]. intros H. apply andb_true_iff in H as (H1 & H2). constructor; auto. intros Hin.
  apply negb_true_iff in H1. assert (existsb (fun c' => (fst c =? fst c') && (snd c =? snd c')) l = true); [|congruence].
  apply existsb_exists. exists c. rewrite !Z.eqb_refl. auto.
Qed.
Definition member_b (cnt len L : Z) (c : coord) : bool := (0 <=? fst c) && (fst c <? cnt) && ((0 <=? snd c) && (snd c + L <=? len)).
Definition lengths_b (cnt len : Z) (l : list (list (list spec_float * list coord))) : bool :=
  forallb (fun L => nodup_b (concat (map snd (pick l L))) && forallb (fun g => forallb (member_b cnt len L) (snd g)) (pick l L)) (lengths len).
Definition fitting_b (cnt len : Z) (t : text) : bool :=
  match p_int t with
  | Some (v, t) => (v =? 1) && match p_thr t with
    | Some t => match p_int t with
      | Some (c, t) => (c =? cnt) && match p_int t with
        | Some (n, t) => (n =? len) && match p_int t with
          | Some (a, t) => (a =? 2) && match p_int t with
            | Some (b, t) => (b =? len + 1) && (text_eqb (word1 t) (list_ascii_of_string "euclidean") &&
                match p_lengths 2 (Z.to_nat (len - 1)) (rest1 t) with Some (l, _) => lengths_b cnt len l | None => false end)
            | None => false end
          | None => false end
        | None => false end
      | None => false end
    | None => false end
  | None => false end.
Lemma fitting_b_ok cnt len t : fitting_b cnt len t = true -> fitting_file cnt len t.
Proof.
  unfold fitting_b. intros H.
  destruct (p_int t) as [(v & t1)|] eqn:E1; [|discriminate]. apply andb_true_iff in H as (H1 & H). apply Z.eqb_eq in H1. subst v.
  destruct (p_thr t1) as [t2|] eqn:E2; [|discriminate].
  destruct (p_int t2) as [(c & t3)|] eqn:E3; [|discriminate]. apply andb_true_iff in H as (H1 & H). apply Z.eqb_eq in H1. subst c.
  destruct (p_int t3) as [(n & t4)|] eqn:E4; [|discriminate]. apply andb_true_iff in H as (H1 & H). apply Z.eqb_eq in H1. subst n.
  destruct (p_int t4) as [(a & t5)|] eqn:E5; [|discriminate]. apply andb_true_iff in H as (H1 & H). apply Z.eqb_eq in H1. subst a.
  destruct (p_int t5) as [(b & t6)|] eqn:E6; [|discriminate]. apply andb_true_iff in H as (H1 & H). apply Z.eqb_eq in H1. subst b.
  apply andb_true_iff in H as (Hn & H). apply text_eqb_ok in Hn.
  destruct (p_lengths 2 (Z.to_nat (len - 1)) (rest1 t6)) as [(l & r)|] eqn:E7; [|discriminate].
  apply p_thr_ok in E2 as (thr & E2). apply p_int_ok in E1, E3, E4, E5, E6.
  change 2 with (2 + Z.of_nat 0) in E7. apply (p_lengths_ok (pick l)) in E7 as (E7 & G).
  2: { intros j Hj. unfold pick. f_equal. lia. }
  assert (Gl : forall L, 2 <= L <= len -> good_length L (pick l L) /\ In L (lengths len)).
  { intros L HL. split; [|now apply lengths_in]. specialize (G (Z.to_nat (L - 2)) ltac:(lia)). replace (2 + Z.of_nat (0 + Z.to_nat (L - 2))) with L in G by lia. exact G. }
  unfold lengths_b in H. rewrite forallb_forall in H.
  exists thr, (list_ascii_of_string "euclidean"), (pick l). split.
  { exists t4, t5, t6, (rest1 t6), r. split; [exists t1, t2, t3; auto|]. split; auto. split; auto. split; [apply fw_dec; auto; discriminate|exact E7]. }
  split; [now left|]. split; [|split; [|split]].
  - intros L v cs HL Hin. apply (Gl L HL) in Hin. apply Hin.
  - intros L v cs c HL Hin Hc. destruct (Gl L HL) as (_ & Hl). specialize (H L Hl). apply andb_true_iff in H as (_ & H). rewrite forallb_forall in H.
    specialize (H (v, cs) Hin). cbn [snd] in H. rewrite forallb_forall in H. specialize (H c Hc). unfold member_b in H. unfold is_sub. lia.
  - intros L HL. destruct (Gl L HL) as (_ & Hl). specialize (H L Hl). apply andb_true_iff in H as (H & _). now apply nodup_b_ok.
  - intros L HL. destruct (Gl L HL) as ((G1 & G2) & _). split; auto. intros v cs Hin. now apply (G2 v cs Hin).
Qed.
