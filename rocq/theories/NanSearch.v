(** * The search of the UCR suite on doubles that may be NaN. *)
From Coq Require Import ZArith Bool Lia SpecFloat List.
From Verif Require Import Outcome Num Lemire Spec SafeLemire Trillion TrillionSpec Search SafeSearch.
Import ListNotations.
Open Scope Z_scope.

(** [<] on doubles is transitive, also with NaN, which is below and above nothing. *)
Lemma sfltb_trans x y z : SFltb x y = true -> SFltb y z = true -> SFltb x z = true.
Proof.
  assert (P : forall a b c, Pos.compare_cont Eq a b = Lt -> Pos.compare_cont Eq b c = Lt -> Pos.compare_cont Eq a c = Lt).
  { intros a b c. change (Pos.compare a b = Lt -> Pos.compare b c = Lt -> Pos.compare a c = Lt). rewrite !Pos.compare_lt_iff. lia. }
  assert (Q : forall a b c, CompOpp (Pos.compare_cont Eq a b) = Lt -> CompOpp (Pos.compare_cont Eq b c) = Lt -> CompOpp (Pos.compare_cont Eq a c) = Lt).
  { intros a b c. change (CompOpp (Pos.compare a b) = Lt -> CompOpp (Pos.compare b c) = Lt -> CompOpp (Pos.compare a c) = Lt). rewrite <- !Pos.compare_antisym, !Pos.compare_lt_iff. lia. }
  unfold SFltb. destruct x as [[]|[]| |[] mx ex], y as [[]|[]| |[] my ey], z as [[]|[]| |[] mz ez]; cbn; try congruence.
  - destruct (Z.compare_spec ex ey), (Z.compare_spec ey ez), (Z.compare_spec ex ez); try congruence; try lia; subst; try lia.
    specialize (Q mx my mz). destruct (CompOpp (Pos.compare_cont Eq mx my)), (CompOpp (Pos.compare_cont Eq my mz)), (CompOpp (Pos.compare_cont Eq mx mz)); try congruence; now specialize (Q eq_refl eq_refl).
  - destruct (Z.compare_spec ex ey), (Z.compare_spec ey ez), (Z.compare_spec ex ez); try congruence; try lia; subst; try lia.
    specialize (P mx my mz). destruct (Pos.compare_cont Eq mx my), (Pos.compare_cont Eq my mz), (Pos.compare_cont Eq mx mz); try congruence; now specialize (P eq_refl eq_refl).
Qed.

Local Notation nan := S754_nan.
(** An infinity or NaN. *)
Definition nonfinite (x : spec_float) : Prop := match x with S754_infinity _ | S754_nan => True | _ => False end.
(** Infinity or NaN: what squares add up to when one of the numbers is not finite. *)
Definition top (x : spec_float) : Prop := match x with S754_infinity false | S754_nan => True | _ => False end.
Lemma nonfinite_dec x : nonfinite x \/ ~ nonfinite x.
Proof. destruct x; cbn; auto. Qed.
Lemma add_nonfinite x d : nonfinite x \/ nonfinite d -> nonfinite (nadd F64 x d).
Proof. destruct x as [[]|[]| |[]], d as [[]|[]| |[]]; cbn; tauto. Qed.
Lemma sub_nonfinite x d : nonfinite x -> nonfinite (nsub F64 x d).
Proof. destruct x as [[]|[]| |[]], d as [[]|[]| |[]]; cbn; tauto. Qed.
Lemma add_top x d : top x \/ top d -> top (nadd F64 x d).
Proof. destruct x as [[]|[]| |[]], d as [[]|[]| |[]]; cbn; tauto. Qed.
Lemma sub_top x d : top x -> top (nsub F64 x d).
Proof. destruct x as [[]|[]| |[]], d as [[]|[]| |[]]; cbn; tauto. Qed.
Lemma mul_top d : nonfinite d -> top (nmul F64 d d).
Proof. destruct d as [[]|[]| |[]]; cbn; tauto. Qed.
(** The deviation is NaN then: the difference of two infinities. *)
Lemma std_nan ex ex2 m : nonfinite ex -> top ex2 -> std_of F64 ex ex2 m = nan.
Proof.
  unfold std_of, mean_of. generalize (nofZ F64 m) as y. intros y. cbn [num F64] in y.
  destruct ex as [[]|[]| |[]], ex2 as [[]|[]| |[]], y as [[]|[]| |[]]; cbn; tauto.
Qed.
Lemma znorm_nan mean x : znorm F64 mean nan x = nan.
Proof. unfold znorm. generalize (nsub F64 x mean) as y. intros y. now destruct y. Qed.
Lemma add_nan_l x : nadd F64 nan x = nan. Proof. reflexivity. Qed.
Lemma sqd_nan y : sqd F64 nan y = nan. Proof. reflexivity. Qed.
Lemma leb_nan x : nleb F64 x nan = false. Proof. now destruct x as [[]|[]| |[]]. Qed.
Lemma sub_nan_r x : nsub F64 x nan = nan. Proof. now destruct x. Qed.

Lemma at_nan (l : list spec_float) i mean (k : spec_float -> outcome spec_float) v :
  bind (bind (zget l i) (fun x => Ok (znorm F64 mean nan x))) k = Ok v -> k nan = Ok v.
Proof. destruct (zget l i); cbn [bind]; try discriminate. now rewrite znorm_nan. Qed.
Lemma any_get (l : list spec_float) i (k : spec_float -> outcome spec_float) v : bind (zget l i) k = Ok v -> exists x, k x = Ok v.
Proof. destruct (zget l i); cbn [bind]; try discriminate. eauto. Qed.

(** ** A window whose deviation is NaN is pruned by the first bound. *)
Lemma kim_nan (t q : list spec_float) j m mean bsf v : t_kim F64 t q j m mean nan bsf = Ok v -> v = nan.
Proof.
  unfold t_kim. cbv zeta. intros E. change (num F64) with spec_float in *.
  apply at_nan in E. apply at_nan in E. apply any_get in E as (q0 & E). apply any_get in E as (q1 & E). rewrite sqd_nan, add_nan_l, leb_nan in E.
  apply at_nan in E. apply any_get in E as (q2 & E). rewrite add_nan_l, leb_nan in E.
  apply at_nan in E. apply any_get in E as (q3 & E). rewrite add_nan_l, leb_nan in E.
  apply at_nan in E. apply any_get in E as (q4 & E). rewrite add_nan_l, leb_nan in E.
  apply at_nan in E. apply any_get in E as (q5 & E). rewrite add_nan_l in E. now injection E as <-.
Qed.
Lemma window_nan (t q : list spec_float) order (qo uo lo l u : list spec_float) (j m r : Z) mean bsf w res w' :
  t_window F64 t q order qo uo lo l u j m r mean nan bsf w = Ok (res, w') -> res = None.
Proof.
  unfold t_window. intros E. apply bind_Ok_inv in E as (k & Ek & E). apply kim_nan in Ek. subst k.
  change (nltb F64 nan bsf) with false in E. now injection E as <- _.
Qed.

(** ** From a number that is not finite on, a chunk finds nothing. *)
Definition lost (ex ex2 : spec_float) : Prop := nonfinite ex /\ top ex2.
Lemma lost_add ex ex2 d : lost ex ex2 \/ nonfinite d -> lost (nadd F64 ex d) (nadd F64 ex2 (nmul F64 d d)).
Proof. intros [(A & B)|A]; split; try (apply add_nonfinite; auto); apply add_top; auto. right. now apply mul_top. Qed.
Lemma lost_sub ex ex2 d : lost ex ex2 -> lost (nsub F64 ex d) (nsub F64 ex2 (nmul F64 d d)).
Proof. intros (A & B). split; [now apply sub_nonfinite|now apply sub_top]. Qed.
(** The number at [i] is not finite. *)
Definition hole (l : list (num F64)) (i : Z) : Prop := exists x, zget l i = Ok x /\ nonfinite x.
Lemma step_nan qy (m r base : Z) (buffer l u : list (num F64)) i ex ex2 t w b ex' ex2' t' w' b' :
  lost ex ex2 \/ hole buffer i -> p_step F64 qy m r base buffer l u i (ex, ex2, t, w, b) = Ok (ex', ex2', t', w', b') -> lost ex' ex2' /\ b' = b.
Proof.
  intros H E. unfold p_step in E. apply bind_Ok_inv in E as (d & Ed & E).
  assert (X : lost (nadd F64 ex d) (nadd F64 ex2 (nmul F64 d d))).
  { apply lost_add. destruct H as [H|(x & Ex & H)]; auto. rewrite Ex in Ed. injection Ed as <-. auto. }
  set (e := nadd F64 ex d) in *. set (e2 := nadd F64 ex2 (nmul F64 d d)) in *. clearbody e e2.
  apply bind_Ok_inv in E as (t1 & _ & E). apply bind_Ok_inv in E as (t2 & _ & E).
  destruct (m - 1 <=? i).
  - apply bind_Ok_inv in E as ((res & w1) & Ew & E). destruct X as (X1 & X2). rewrite (std_nan _ _ _ X1 X2) in Ew. apply window_nan in Ew. subst res.
    apply bind_Ok_inv in E as (x & _ & E). injection E as <- <- _ _ <-. split; auto. apply lost_sub. now split.
  - injection E as <- <- _ _ <-. auto.
Qed.

Lemma chunk_nan qy (m r base : Z) (buffer t : list (num F64)) w b k : 3 <= m -> 0 <= r < m -> 0 <= base -> fits F64 m qy -> m <= zlen buffer -> zlen t = 2 * m -> sized F64 m w -> best_any F64 base b ->
  hole buffer k ->
  exists t' w' b', chunk F64 qy m r base buffer t w b = Ok (t', w', b') /\ zlen t' = 2 * m /\ sized F64 m w' /\ best_any F64 (base + Z.max 0 (k - m + 1)) b'.
Proof.
  intros Hm Hr Hbase Hq HB Lt Sw Hb Hk. assert (Rk : 0 <= k < zlen buffer) by (destruct Hk as (x & Ex & _); now apply zget_inv in Ex). unfold chunk.
  destruct (envelope_any F64 buffer r ltac:(lia)) as (l & u & E & Ll & Lu). apply bind_Ok_inv in E as ((l0 & u0) & El & E). rewrite El. cbn [bind].
  apply bind_Ok_inv in E as (l1 & E1 & E). rewrite E1. cbn [bind]. apply bind_Ok_inv in E as (u1 & E2 & E). rewrite E2. cbn [bind]. injection E as -> ->.
  assert (P : Post (for_ 0 (zlen buffer) (p_step F64 qy m r base buffer l u) (nzero F64, nzero F64, t, w, b))
    ((fun i (s : pstate F64) => let '(ex, ex2, t, w, b) := s in zlen t = 2 * m /\ sized F64 m w /\ best_any F64 (base + Z.max 0 (Z.min i k - m + 1)) b /\ (k < i -> lost ex ex2)) (Z.max 0 (zlen buffer)))).
  { apply (for_rule (fun i (s : pstate F64) => let '(ex, ex2, t, w, b) := s in zlen t = 2 * m /\ sized F64 m w /\ best_any F64 (base + Z.max 0 (Z.min i k - m + 1)) b /\ (k < i -> lost ex ex2))).
    - split; auto. split; auto. split; [eapply best_mono; [|exact Hb]; lia|lia].
    - intros i ((((ex, ex2), t1), w1), b1) Hi (A1 & A2 & A3 & A4).
      assert (A3' : best_any F64 (base + Z.max 0 (i - m + 1)) b1) by (eapply best_mono; [|exact A3]; lia).
      pose proof (step_any F64 sfltb_trans qy m r base buffer l u i ex ex2 t1 w1 b1 Hm ltac:(lia) Hbase Hq Ll Lu Hi A1 A2 A3') as Q.
      destruct (Post_inv _ _ Q) as (((((ex' & ex2') & t') & w') & b') & Es & B1 & B2 & B3). rewrite Es. cbn [Post wp].
      split; auto. split; auto. destruct (Z_lt_ge_dec i k) as [Hlt|Hge].
      + split; [eapply best_mono; [|exact B3]; lia|lia].
      + apply step_nan in Es as (Hl & ->); [|destruct (Z.eq_dec i k) as [->|]; [now right|left; apply A4; lia]].
        split; auto. eapply best_mono; [|exact A3]. lia. }
  destruct (Post_inv _ _ P) as (((((ex & ex2) & t1) & w1) & b1) & -> & A1 & A2 & A3 & _). cbn [bind]. exists t1, w1, b1. split; auto. split; auto. split; auto.
  eapply best_mono; [|exact A3]. lia.
Qed.

(** A file that fits one chunk. *)
Lemma calculate_nan fuel (epoch : Z) sort (xs qs : list (num F64)) bad (m r k : Z) : 3 <= m -> m <= zlen qs -> 0 <= r < m -> (forall l : list (num F64), inside (zlen l) (sort l)) ->
  m <= zlen xs < epoch -> hole xs k -> (0 < fuel)%nat ->
  exists loc B, calculate F64 fuel epoch sort (mkNFile F64 xs false) (mkNFile F64 qs bad) m r = Ok (mkFound F64 loc B (zlen xs)) /\ best_any F64 (Z.max 0 (k - m + 1)) (mkBest F64 B loc).
Proof.
  intros Hm Hq Hr Hs Hx Hk Hf. unfold calculate. destruct (prepare_any F64 sort qs bad m r ltac:(lia) Hr Hs) as (qy & d & -> & F). cbn [bind].
  destruct fuel as [|fuel]; [lia|]. cbn [chunks]. change (0 =? 0) with true. cbv iota.
  destruct (read_n_any F64 (Z.to_nat (m - 1)) xs d) as (d1 & E1). rewrite E1. cbn [bind].
  assert (L1 : zlen (firstn (Z.to_nat (m - 1)) xs) = m - 1) by (unfold zlen in *; rewrite firstn_length; lia).
  rewrite L1. destruct (Z.ltb_spec epoch (m - 1)); [lia|].
  destruct (read_n_any F64 (Z.to_nat (epoch - (m - 1))) (skipn (Z.to_nat (m - 1)) xs) d1) as (d2 & E2). rewrite E2. cbn [bind].
  assert (Et : firstn (Z.to_nat (epoch - (m - 1))) (skipn (Z.to_nat (m - 1)) xs) = skipn (Z.to_nat (m - 1)) xs) by (apply firstn_all2; rewrite skipn_length; unfold zlen in Hx; lia).
  rewrite Et, firstn_skipn. assert (L2 : zlen (skipn (Z.to_nat (m - 1)) xs) = zlen xs - (m - 1)) by (unfold zlen in *; rewrite skipn_length; lia).
  rewrite L2. destruct (Z.eqb_spec (zlen xs - (m - 1)) 0); [lia|]. change (0 * (epoch - m + 1)) with 0.
  set (z := zrepeat (nzero F64) m). assert (Lz : zlen z = m) by (apply zlen_zrepeat; lia).
  destruct (chunk_nan qy m r 0 xs (zrepeat (nzero F64) (2 * m)) (mkScratch F64 z z z z) (mkBest F64 (big F64) 0) k) as (t' & w' & b' & E & _ & _ & Hb); auto; try lia.
  { apply zlen_zrepeat; lia. } { repeat split; exact Lz. } { now left. }
  rewrite E. cbn [bind]. destruct (Z.ltb_spec (m - 1 + (zlen xs - (m - 1))) epoch); [|lia].
  exists (b_loc F64 b'), (b_bsf F64 b'). split; [do 2 f_equal; lia|]. destruct b'; exact Hb.
Qed.

(** ** A query with a number that is not finite: no window is compared. *)
Lemma sqd_nan_r x : sqd F64 x nan = nan.
Proof. unfold sqd. now rewrite sub_nan_r. Qed.
Lemma get_nan (l : list spec_float) i (k : spec_float -> outcome spec_float) v : Forall (eq nan) l -> bind (zget l i) k = Ok v -> k nan = Ok v.
Proof.
  intros F E. apply bind_Ok_inv in E as (x & Ex & E). rewrite Forall_forall in F. unfold zget in Ex. destruct (i <? 0); [discriminate|].
  destruct (nth_error l (Z.to_nat i)) eqn:En; [|discriminate]. injection Ex as <-. apply nth_error_In in En. now rewrite (F _ En).
Qed.
Lemma kim_nan_query (t q : list spec_float) j m mean std bsf v : Forall (eq nan) q -> t_kim F64 t q j m mean std bsf = Ok v -> v = nan.
Proof.
  unfold t_kim. cbv zeta. intros F E. change (num F64) with spec_float in *.
  apply bind_Ok_inv in E as (x0 & _ & E). apply bind_Ok_inv in E as (y0 & _ & E). apply get_nan in E; [|exact F]. apply get_nan in E; [|exact F]. rewrite sqd_nan_r, add_nan_l, leb_nan in E.
  apply bind_Ok_inv in E as (x1 & _ & E). apply get_nan in E; [|exact F]. rewrite add_nan_l, leb_nan in E.
  apply bind_Ok_inv in E as (x2 & _ & E). apply get_nan in E; [|exact F]. rewrite add_nan_l, leb_nan in E.
  apply bind_Ok_inv in E as (x3 & _ & E). apply get_nan in E; [|exact F]. rewrite add_nan_l, leb_nan in E.
  apply bind_Ok_inv in E as (x4 & _ & E). apply get_nan in E; [|exact F]. rewrite add_nan_l in E. now injection E as <-.
Qed.
Lemma step_nan_query qy (m r base : Z) (buffer l u : list (num F64)) i ex ex2 t w b ex' ex2' t' w' b' : Forall (eq nan) (qu_q F64 qy) ->
  p_step F64 qy m r base buffer l u i (ex, ex2, t, w, b) = Ok (ex', ex2', t', w', b') -> b' = b.
Proof.
  intros F E. unfold p_step in E. apply bind_Ok_inv in E as (d & _ & E). apply bind_Ok_inv in E as (t1 & _ & E). apply bind_Ok_inv in E as (t2 & _ & E).
  destruct (m - 1 <=? i).
  - apply bind_Ok_inv in E as ((res & w1) & Ew & E). unfold t_window in Ew. apply bind_Ok_inv in Ew as (k & Ek & Ew). apply kim_nan_query in Ek; [|exact F]. subst k.
    change (nltb F64 nan (b_bsf F64 b)) with false in Ew. injection Ew as <- <-.
    apply bind_Ok_inv in E as (x & _ & E). injection E as _ _ _ _ <-. auto.
  - injection E as _ _ _ _ <-. auto.
Qed.
Lemma loop_inv {S} (I : S -> Prop) (body : Z -> S -> outcome S) n : (forall i s s', I s -> body i s = Ok s' -> I s') -> forall i s s', I s -> loop n i body s = Ok s' -> I s'.
Proof. intros H. induction n as [|n IH]; intros i s s' Hs E; cbn in E; [now injection E as <-|]. apply bind_Ok_inv in E as (s1 & E1 & E). eauto. Qed.
Lemma chunks_nan_query qy (epoch m r : Z) : Forall (eq nan) (qu_q F64 qy) -> forall fuel it f d (buffer t : list (num F64)) w b fo,
  chunks F64 fuel epoch qy m r it f d buffer t w b = Ok fo -> fo_loc F64 fo = b_loc F64 b /\ fo_bsf F64 fo = b_bsf F64 b.
Proof.
  intros F. induction fuel as [|fuel IH]; intros it f d buffer t w b fo E; cbn [chunks] in E; [discriminate|].
  apply bind_Ok_inv in E as (((hd & f1) & d1) & _ & E). destruct (epoch <? zlen hd); [discriminate|].
  apply bind_Ok_inv in E as (((tl & f2) & d2) & _ & E). destruct (zlen tl =? 0); [injection E as <-; auto|].
  apply bind_Ok_inv in E as (((t1 & w1) & b1) & Ec & E).
  assert (Eb : b1 = b).
  { unfold chunk in Ec. apply bind_Ok_inv in Ec as ((l & u) & _ & Ec). apply bind_Ok_inv in Ec as (l' & _ & Ec). apply bind_Ok_inv in Ec as (u' & _ & Ec).
    apply bind_Ok_inv in Ec as (((((ex & ex2) & t2) & w2) & b2) & El & Ec). injection Ec as <- <- <-. unfold for_ in El.
    apply (loop_inv (fun s : pstate F64 => snd s = b)) in El; auto.
    intros i ((((e, e2), t3), w3), b3) ((((e', e2'), t3'), w3'), b3') Hs Es. cbn in *. apply step_nan_query in Es; [congruence|exact F]. }
  subst b1. destruct (m - 1 + zlen tl <? epoch); [injection E as <-; auto|]. eauto.
Qed.
Lemma read_query_nan n : forall (xs : list spec_float) bad d q ex ex2 q' ex' ex2' d', (n <= length xs)%nat -> lost ex ex2 \/ Exists nonfinite (firstn n xs) ->
  read_query F64 n (mkNFile F64 xs bad) d q ex ex2 = Ok (q', ex', ex2', d') -> lost ex' ex2'.
Proof.
  induction n as [|n IH]; intros xs bad d q ex ex2 q' ex' ex2' d' Hn H E.
  - destruct H as [H|H]; [|inversion H]. cbn in E. destruct xs as [|x xs]; cbn in E; [destruct bad; cbn in E|]; injection E as _ <- <- _; auto.
  - destruct xs as [|x xs]; [cbn in Hn; lia|]. cbn in Hn. cbn [read_query scan f_vals f_bad] in E. apply IH in E; auto; [lia|].
    cbn [firstn] in H. destruct H as [H|H]; [left; apply lost_add; auto|]. inversion H; subst; [left; apply lost_add; auto|now right].
Qed.
Lemma prepare_nan sort (qs : list (num F64)) bad (m r : Z) qy d : 1 <= m <= zlen qs -> Exists nonfinite (firstn (Z.to_nat m) qs) ->
  prepare F64 sort (mkNFile F64 qs bad) m r = Ok (qy, d) -> Forall (eq nan) (qu_q F64 qy).
Proof.
  intros Hm H E. unfold prepare in E. apply bind_Ok_inv in E as ((((q & ex) & ex2) & d1) & Eq & E).
  apply read_query_nan in Eq as (X1 & X2); [|unfold zlen in Hm; change (num F64) with spec_float in *; lia|now right]. rewrite (std_nan _ _ _ X1 X2) in E.
  destruct (zlen q <? m); [discriminate|].
  apply bind_Ok_inv in E as ((l & u) & _ & E). apply bind_Ok_inv in E as (l' & _ & E). apply bind_Ok_inv in E as (u' & _ & E).
  apply bind_Ok_inv in E as (qo & _ & E). apply bind_Ok_inv in E as (uo & _ & E). apply bind_Ok_inv in E as (lo & _ & E). injection E as <- _. cbn [qu_q].
  apply Forall_map, Forall_forall. intros x _. now rewrite znorm_nan.
Qed.
