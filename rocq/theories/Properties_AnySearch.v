(** * Property C73: the search of the UCR suite on any doubles, NaN and infinities included.

    fscanf reads "nan" and "inf" as numbers, and sums of large numbers overflow to infinity, so the theorems about exact arithmetic (C56)
    do not say that the search is safe on every file.  These do.  [sort] is what qsort leaves of the positions of the query; the
    comparison function that the code gives to qsort is not safe on NaN (last theorem but one). *)
From Coq Require Import ZArith Bool Lia SpecFloat List.
From Verif Require Import Outcome Num F64Laws Lemire Trillion TrillionSpec Search Search32 Properties_Search32 SafeLemire SafeSearch NanSearch NanFree ConstQuery.
Import ListNotations.
Open Scope Z_scope.

Local Notation dbl := (num F64).
(** The distance 1e20 at which the search starts. *)
Local Notation start := (big F64).
Lemma sort_inside (sort : list dbl -> list Z) : (forall l, ordering (zlen l) (sort l)) -> forall l, inside (zlen l) (sort l).
Proof. intros H l. destruct (H l) as (A & _ & B). now split. Qed.

(** Whatever the doubles in the two files, the search ends without undefined behaviour.  It reports either that nothing nearer than
    1e20 was found (location 0) or the start of a window of the file and a distance below 1e20; never NaN. *)
Theorem C73_any_doubles : forall fuel (epoch : Z) sort (xs qs : list dbl) bad (m r : Z),
  3 <= m <= epoch -> m <= zlen qs -> 0 <= r < m -> (forall l : list dbl, ordering (zlen l) (sort l)) -> zlen xs < Z.of_nat fuel ->
  exists loc B, calculate F64 fuel epoch sort (mkNFile F64 xs false) (mkNFile F64 qs bad) m r = Ok (mkFound F64 loc B (Z.max (zlen xs) (m - 1))) /\
    ((B = start /\ loc = 0) \/ (SFltb B start = true /\ 0 <= loc <= zlen xs - m)).
Proof.
  intros fuel epoch sort xs qs bad m r Hm Hq Hr Hs Hf.
  destruct (calculate_any F64 sfltb_trans fuel epoch sort xs qs bad m r Hm Hq Hr (sort_inside sort Hs) Hf) as (loc & B & E & [H|(H1 & H2)]); exists loc, B; split; auto.
  right. split; auto. cbn [b_loc] in H2. lia.
Qed.
(** The same with the int arithmetic of the program (C71), on files of at most 2^31 - 1 numbers. *)
Theorem C73_any_doubles_int : forall fuel (epoch : Z) sort (xs qs : list dbl) bad (m r : Z),
  3 <= m <= epoch -> epoch <= 1000000 -> m <= zlen qs -> 0 <= r < m -> (forall l : list dbl, ordering (zlen l) (sort l)) -> zlen xs < Z.of_nat fuel ->
  zlen xs <= 2147483647 ->
  exists loc B, calculate32 F64 fuel epoch sort (mkNFile F64 xs false) (mkNFile F64 qs bad) m r = Ok (mkFound F64 loc B (Z.max (zlen xs) (m - 1))) /\
    ((B = start /\ loc = 0) \/ (SFltb B start = true /\ 0 <= loc <= zlen xs - m)).
Proof.
  intros fuel epoch sort xs qs bad m r Hm He Hq Hr Hs Hf Hx.
  destruct (C73_any_doubles fuel epoch sort xs qs bad m r Hm Hq Hr Hs Hf) as (loc & B & E & H). exists loc, B. split; auto.
  apply (C71_same_or_overflow F64 fuel epoch sort _ _ m r _ ltac:(lia) He Hr E). cbn [fo_scanned]. lia.
Qed.

(** [x] is an infinity or NaN. *)
Definition not_finite (x : dbl) : Prop := x = S754_nan \/ exists s, x = S754_infinity s.
Lemma not_finite_iff x : not_finite x <-> nonfinite x.
Proof. unfold not_finite. destruct x; cbn; split; intros; auto; try contradiction; try (destruct H as [|(? & ?)]; discriminate). eauto. Qed.
(** The file is searched in chunks; each is [epoch] numbers long and starts [epoch - m + 1] after the one before.  One such number hides
    the rest of its chunk: from the start of the chunk in which a window is found to the end of the window there are only finite
    numbers. *)
Theorem C73_hides_rest_of_chunk : forall fuel (epoch : Z) sort (xs qs : list dbl) bad (m r : Z),
  3 <= m <= epoch -> m <= zlen qs -> 0 <= r < m -> (forall l : list dbl, ordering (zlen l) (sort l)) -> zlen xs < Z.of_nat fuel ->
  exists loc B, calculate F64 fuel epoch sort (mkNFile F64 xs false) (mkNFile F64 qs bad) m r = Ok (mkFound F64 loc B (Z.max (zlen xs) (m - 1))) /\
    ((B = start /\ loc = 0) \/ (SFltb B start = true /\ 0 <= loc <= zlen xs - m /\
      forall k x, loc / (epoch - m + 1) * (epoch - m + 1) <= k < loc + m -> zget xs k = Ok x -> ~ not_finite x)).
Proof.
  intros fuel epoch sort xs qs bad m r Hm Hq Hr Hs Hf.
  destruct (C73_any_doubles fuel epoch sort xs qs bad m r Hm Hq Hr Hs Hf) as (loc & B & E & H). exists loc, B. split; auto.
  unfold calculate in E. apply bind_Ok_inv in E as ((qy & d) & _ & E).
  apply (chunks_free xs m epoch qy r ltac:(lia)) in E; [|lia|left; auto|unfold sound; left; cbn [b_bsf b_loc]; split; reflexivity]. unfold sound in E. cbn [fo_bsf fo_loc b_bsf b_loc] in E.
  destruct H as [H|(H1 & H2)]; [left; exact H|]. destruct E as [E|E]; [left; exact E|]. right. split; [exact H1|]. split; [exact H2|].
  intros k x Hk Ex Hx. apply (E k Hk). exists x. split; auto. now apply not_finite_iff.
Qed.
(** In particular a window that is found holds only finite numbers. *)
Theorem C73_found_is_finite : forall fuel (epoch : Z) sort (xs qs : list dbl) bad (m r : Z),
  3 <= m <= epoch -> m <= zlen qs -> 0 <= r < m -> (forall l : list dbl, ordering (zlen l) (sort l)) -> zlen xs < Z.of_nat fuel ->
  exists loc B, calculate F64 fuel epoch sort (mkNFile F64 xs false) (mkNFile F64 qs bad) m r = Ok (mkFound F64 loc B (Z.max (zlen xs) (m - 1))) /\
    ((B = start /\ loc = 0) \/ (SFltb B start = true /\ 0 <= loc <= zlen xs - m /\ forall k x, loc <= k < loc + m -> zget xs k = Ok x -> ~ not_finite x)).
Proof.
  intros fuel epoch sort xs qs bad m r Hm Hq Hr Hs Hf.
  destruct (C73_hides_rest_of_chunk fuel epoch sort xs qs bad m r Hm Hq Hr Hs Hf) as (loc & B & E & H). exists loc, B. split; auto.
  destruct H as [H|(H1 & H2 & H3)]; [left; exact H|]. right. split; [exact H1|]. split; [exact H2|]. intros k x Hk. apply H3.
  pose proof (Z.mul_div_le loc (epoch - m + 1) ltac:(lia)). lia.
Qed.
(** In a file that fits one chunk (99999 numbers or less in the code), a window that is found ends before the first of them. *)
Theorem C73_hides_rest : forall fuel (epoch : Z) sort (xs qs : list dbl) bad (m r k : Z) x,
  3 <= m -> m <= zlen qs -> 0 <= r < m -> (forall l : list dbl, ordering (zlen l) (sort l)) -> (0 < fuel)%nat ->
  m <= zlen xs < epoch -> zget xs k = Ok x -> not_finite x ->
  exists loc B, calculate F64 fuel epoch sort (mkNFile F64 xs false) (mkNFile F64 qs bad) m r = Ok (mkFound F64 loc B (zlen xs)) /\
    ((B = start /\ loc = 0) \/ (SFltb B start = true /\ 0 <= loc /\ loc + m <= k)).
Proof.
  intros fuel epoch sort xs qs bad m r k x Hm Hq Hr Hs Hf Hx Hk Hn.
  destruct (calculate_nan fuel epoch sort xs qs bad m r k Hm Hq Hr (sort_inside sort Hs) Hx) as (loc & B & E & [H|(H1 & H2)]); auto.
  - exists x. split; auto. now apply not_finite_iff.
  - exists loc, B. auto.
  - exists loc, B. split; auto. right. split; auto. cbn [b_loc] in H2. lia.
Qed.
(** One such number in the query hides everything: nothing is found in any file. *)
Theorem C73_query_not_finite : forall fuel (epoch : Z) sort (xs qs : list dbl) bad (m r : Z) x,
  3 <= m <= epoch -> m <= zlen qs -> 0 <= r < m -> (forall l : list dbl, ordering (zlen l) (sort l)) -> zlen xs < Z.of_nat fuel ->
  In x (firstn (Z.to_nat m) qs) -> not_finite x ->
  calculate F64 fuel epoch sort (mkNFile F64 xs false) (mkNFile F64 qs bad) m r = Ok (mkFound F64 0 start (Z.max (zlen xs) (m - 1))).
Proof.
  intros fuel epoch sort xs qs bad m r x Hm Hq Hr Hs Hf Hi Hn.
  destruct (C73_any_doubles fuel epoch sort xs qs bad m r Hm Hq Hr Hs Hf) as (loc & B & E & _). rewrite E.
  unfold calculate in E. apply bind_Ok_inv in E as ((qy & d) & Ep & E). apply prepare_nan in Ep; [|lia|apply Exists_exists; exists x; split; auto; now apply not_finite_iff].
  destruct (chunks_nan_query qy epoch m r Ep _ _ _ _ _ _ _ _ _ E) as (E1 & E2). cbn [fo_loc fo_bsf b_loc b_bsf] in E1, E2. now subst.
Qed.

(** The envelopes, for any numbers and any comparison of them: no access outside the arrays or the queues, every cell is written, and
    each bound is one of the values of its window (which of them needs an order: C01). *)
Theorem C73_envelope_of_anything : forall N (t : list (num N)) (r : Z), 0 <= r <= zlen t - 1 ->
  exists l u, lower_upper_lemire N t r = Ok (l, u) /\ zlen l = zlen t /\ zlen u = zlen t /\
  forall k, 0 <= k < zlen t -> exists i j x y, zget l k = Ok (Some x) /\ zget t i = Ok x /\ zget u k = Ok (Some y) /\ zget t j = Ok y /\
    Z.abs (i - k) <= r /\ Z.abs (j - k) <= r.
Proof.
  intros N t r Hr. destruct (Post_inv _ _ (lemire_any N t r Hr)) as ((l & u) & E & L1 & L2 & H). exists l, u. split; auto. split; auto. split; auto.
  intros k Hk. destruct (H k Hk) as ((x & Ex & i & Ri & Hx) & (y & Ey & j & Rj & Hy)). exists i, j, x, y.
  split; auto. split; [subst x; apply zget_nth; lia|]. split; auto. split; [subst y; apply zget_nth; lia|]. lia.
Qed.

(** The comparison given to qsort converts the difference of two values to int, which is undefined for NaN. *)
Theorem C73_comparison_of_nan : forall x : dbl, index_diff F64 x S754_nan = UB BadConv /\ index_diff F64 S754_nan x = UB BadConv.
Proof. intros x. now destruct x as [[]|[]| |[]]. Qed.
(** So a constant query is undefined as soon as qsort compares two of its numbers: they are all NaN after the normalisation, because
    their deviation is 0.  With a qsort that goes on, nothing is found in any file, not even a copy of the query.  (For whole numbers
    whose sum of squares is exact; otherwise the deviation may be rounded to something else.) *)
Theorem C73_constant_query : forall fuel (epoch : Z) sort (xs qs : list dbl) bad (m r c : Z),
  3 <= m <= epoch -> m <= zlen qs -> 0 <= r < m -> (forall l : list dbl, ordering (zlen l) (sort l)) -> zlen xs < Z.of_nat fuel ->
  m <= 2 ^ 53 -> m * c ^ 2 <= 2 ^ 53 -> (forall x, In x (firstn (Z.to_nat m) qs) -> x = f64_ofZ c) ->
  calculate F64 fuel epoch sort (mkNFile F64 xs false) (mkNFile F64 qs bad) m r = Ok (mkFound F64 0 start (Z.max (zlen xs) (m - 1))) /\
  exists qy d, prepare F64 sort (mkNFile F64 qs bad) m r = Ok (qy, d) /\ zlen (qu_q F64 qy) = m /\
    forall x y, In x (qu_q F64 qy) -> In y (qu_q F64 qy) -> index_diff F64 x y = UB BadConv.
Proof.
  intros fuel epoch sort xs qs bad m r c Hm Hq Hr Hs Hf Hb Hc Hi.
  assert (W : whole (f64_ofZ c) c) by (apply ofZ_exact; nia).
  assert (F : Forall (eq (f64_ofZ c)) (firstn (Z.to_nat m) qs)) by (apply Forall_forall; intros x Hx; symmetry; now apply Hi).
  destruct (C73_any_doubles fuel epoch sort xs qs bad m r Hm Hq Hr Hs Hf) as (loc & B & E & _). rewrite E.
  destruct (prepare_any F64 sort qs bad m r ltac:(lia) Hr (sort_inside sort Hs)) as (qy0 & d0 & E0 & F0).
  pose proof E0 as En. apply (prepare_const sort qs bad m r qy0 d0 (f64_ofZ c) c) in En; auto; [|lia].
  split.
  - unfold calculate in E. rewrite E0 in E. cbn [bind] in E.
    destruct (chunks_nan_query qy0 epoch m r En _ _ _ _ _ _ _ _ _ E) as (E1 & E2). cbn [fo_loc fo_bsf b_loc b_bsf] in E1, E2. now subst.
  - exists qy0, d0. split; [exact E0|]. split; [apply F0|]. intros x y Hx Hy. rewrite Forall_forall in En. rewrite <- (En x Hx). apply C73_comparison_of_nan.
Qed.
(** Nor is a constant window ever found: in a file of whole numbers [zs] with exact sums of squares, two numbers of a window that is
    found differ. *)
Theorem C73_constant_window : forall fuel (epoch : Z) sort (zs : list Z) (qs : list dbl) bad (m r K : Z),
  3 <= m <= epoch -> m <= zlen qs -> 0 <= r < m -> (forall l : list dbl, ordering (zlen l) (sort l)) -> zlen zs < Z.of_nat fuel ->
  m <= 2 ^ 53 -> 1 <= K -> m * K ^ 2 <= 2 ^ 53 -> Forall (fun z => Z.abs z <= K) zs ->
  exists loc B, calculate F64 fuel epoch sort (mkNFile F64 (map f64_ofZ zs) false) (mkNFile F64 qs bad) m r = Ok (mkFound F64 loc B (Z.max (zlen zs) (m - 1))) /\
    ((B = start /\ loc = 0) \/
     (SFltb B start = true /\ 0 <= loc <= zlen zs - m /\ exists k, loc <= k < loc + m /\ nth (Z.to_nat k) zs 0 <> nth (Z.to_nat loc) zs 0)).
Proof.
  intros fuel epoch sort zs qs bad m r K Hm Hq Hr Hs Hf Hb HK HM F.
  assert (L : zlen (map f64_ofZ zs) = zlen zs) by (unfold zlen; now rewrite map_length).
  destruct (C73_any_doubles fuel epoch sort (map f64_ofZ zs) qs bad m r Hm Hq Hr Hs) as (loc & B & E & H).
  { change (num F64) with spec_float. rewrite L. exact Hf. }
  change (num F64) with spec_float in E, H. rewrite L in E, H. exists loc, B. split; [exact E|].
  unfold calculate in E. apply bind_Ok_inv in E as ((qy & d) & _ & E).
  apply (chunks_const m K ltac:(lia) HK HM zs qy epoch r ltac:(lia) F) in E; [|lia|left; split; reflexivity|left; cbn [b_bsf b_loc]; split; reflexivity]. unfold soundc in E. cbn [fo_bsf fo_loc b_bsf b_loc] in E.
  destruct H as [H|(H1 & H2)]; [left; exact H|]. destruct E as [E|E]; [left; exact E|]. right. split; [exact H1|]. split; [exact H2|exact E].
Qed.
(** A query of two numbers: the first bound reads beyond the end of the query. *)
Theorem C73_two_numbers_witness : exists xs qs : list dbl, zlen xs = 2 /\ zlen qs = 2 /\
  calculate F64 3 100000 (fun l => map Z.of_nat (seq 0 (length l))) (mkNFile F64 xs false) (mkNFile F64 qs false) 2 1 = UB OutOfBounds.
Proof.
  exists (map f64_ofZ [0; 1]), (map f64_ofZ [0; 1]). split; [reflexivity|]. split; [reflexivity|].
  assert (X : match calculate F64 3 100000 (fun l => map Z.of_nat (seq 0 (length l))) (mkNFile F64 (map f64_ofZ [0; 1]) false) (mkNFile F64 (map f64_ofZ [0; 1]) false) 2 1 with UB OutOfBounds => true | _ => false end = true) by (vm_compute; reflexivity).
  destruct (calculate F64 3 100000 _ _ _ 2 1) as [| |[]|]; try discriminate. reflexivity.
Qed.

(** The theorems apply: a file with a copy of the query at 7.  It is found; with a NaN or an infinity in front of it, it is not. *)
Definition in_turn (l : list dbl) : list Z := map Z.of_nat (seq 0 (length l)).
Lemma in_turn_ordering (l : list dbl) : ordering (zlen l) (in_turn l).
Proof.
  unfold in_turn. split; [unfold zlen; rewrite map_length, seq_length; reflexivity|]. split.
  - apply FinFun.Injective_map_NoDup; [intros x y; lia|apply seq_NoDup].
  - apply Forall_map, Forall_forall. intros x Hx. apply in_seq in Hx. unfold zlen. lia.
Qed.
Definition hay (x : dbl) : list dbl := map f64_ofZ [3; 1; 4; 1; 5; 9] ++ [x] ++ map f64_ofZ [5; 8; 9; 7; 9; 4; 2].
Definition needle : list dbl := map f64_ofZ [5; 8; 9; 7; 9; 4].
Definition location (x : dbl) : option Z :=
  match calculate F64 20 100 in_turn (mkNFile F64 (hay x) false) (mkNFile F64 needle false) 6 1 with Ok fo => Some (fo_loc F64 fo) | _ => None end.
Example C73_case : location (f64_ofZ 2) = Some 7 /\ location S754_nan = Some 0 /\ location (S754_infinity false) = Some 0 /\
  exists loc B, calculate F64 20 100 in_turn (mkNFile F64 (hay S754_nan) false) (mkNFile F64 needle false) 6 1 = Ok (mkFound F64 loc B 14) /\
    ((B = start /\ loc = 0) \/ (SFltb B start = true /\ 0 <= loc /\ loc + 6 <= 6)).
Proof.
  split; [vm_compute; reflexivity|]. split; [vm_compute; reflexivity|]. split; [vm_compute; reflexivity|].
  assert (L1 : zlen (hay S754_nan) = 14) by reflexivity. assert (L2 : zlen needle = 6) by reflexivity. rewrite <- L1.
  apply (C73_hides_rest 20 100 in_turn (hay S754_nan) needle false 6 1 6 S754_nan); try lia; [apply in_turn_ordering|reflexivity|now left].
Qed.
(** With chunks of 8 numbers, which start at 0, 3 and 6: the copy at 7 is in the third chunk.  A NaN at 5 no longer hides it, one at 6 does. *)
Definition location_at (epoch k : Z) : option Z :=
  match zset (hay (f64_ofZ 2)) k S754_nan with
  | Ok xs => match calculate F64 20 epoch in_turn (mkNFile F64 xs false) (mkNFile F64 needle false) 6 1 with Ok fo => Some (fo_loc F64 fo) | _ => None end
  | _ => None
  end.
Example C73_chunks_case : location_at 8 5 = Some 7 /\ location_at 100 5 = Some 0 /\ location_at 8 6 <> Some 7 /\ 7 / (8 - 6 + 1) * (8 - 6 + 1) = 6.
Proof. split; [vm_compute; reflexivity|]. split; [vm_compute; reflexivity|]. split; [vm_compute; discriminate|reflexivity]. Qed.
Example C73_constant_case : calculate F64 20 100 in_turn (mkNFile F64 (map f64_ofZ [7; 5; 5; 5; 5; 1]) false) (mkNFile F64 (map f64_ofZ [5; 5; 5; 5]) false) 4 1 = Ok (mkFound F64 0 start 6).
Proof.
  assert (L : zlen (map f64_ofZ [7; 5; 5; 5; 5; 1]) = 6) by reflexivity.
  refine (proj1 (C73_constant_query 20 100 in_turn (map f64_ofZ [7; 5; 5; 5; 5; 1]) (map f64_ofZ [5; 5; 5; 5]) false 4 1 5 _ _ _ in_turn_ordering _ _ _ _)); try (cbn; lia).
  intros x Hx. cbn [Z.to_nat] in Hx. repeat (destruct Hx as [<-|Hx]; [reflexivity|]). destruct Hx.
Qed.
Example C73_window_case : exists loc B, calculate F64 20 100 in_turn (mkNFile F64 (map f64_ofZ [5; 5; 5; 5; 1; 2]) false) (mkNFile F64 (map f64_ofZ [1; 1; 1; 2]) false) 4 1 = Ok (mkFound F64 loc B 6) /\
  ((B = start /\ loc = 0) \/ (SFltb B start = true /\ 0 <= loc <= 2 /\ exists k, loc <= k < loc + 4 /\ nth (Z.to_nat k) [5; 5; 5; 5; 1; 2] 0 <> nth (Z.to_nat loc) [5; 5; 5; 5; 1; 2] 0)).
Proof. apply (C73_constant_window 20 100 in_turn [5; 5; 5; 5; 1; 2] (map f64_ofZ [1; 1; 1; 2]) false 4 1 5); try (cbn; lia); [apply in_turn_ordering|repeat constructor; cbn; lia]. Qed.
