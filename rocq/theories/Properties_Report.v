(** * Property C72: what the search of the UCR suite reports about its windows (trillionDTW.cpp:559-570).

    [search32] (Search32.v) returns what was found and the counters; [report_of] computes the numbers of the report from them. *)
From Coq Require Import ZArith Bool Reals Lra Lia List SpecFloat.
From Flocq Require Import Core.
From Verif Require Import Outcome Num RX Lemire LemireProofs Distance Laws F64Base RXLaws F64Laws Spec Numeric Metric Kim.
From Verif Require Import Trillion TrillionSpec Search SearchSpec SearchProofs Properties_Trillion Properties_Search.
From Verif Require Import Ints IntsProofs Search32 Search32Proofs Properties_Search32.
Import ListNotations.
Open Scope Z_scope.

(** Each window is pruned by exactly one of the three bounds or compared by dtw: the four counts add up to the number of windows,
    which is m - 1 less than the number of points reported as scanned.  In any arithmetic, for any files. *)
Theorem C72_every_window_counted : forall N fuel epoch sort data query (m r : Z) fo c,
  1 <= m <= epoch -> epoch <= 1000000 -> 0 <= r < m -> search32 N fuel epoch sort data query m r = Ok (fo, c) ->
  0 <= c_kim c /\ 0 <= c_keogh c /\ 0 <= c_keogh2 c /\ 0 <= c_dtw c /\
  c_kim c + c_keogh c + c_keogh2 c + c_dtw c = fo_scanned N fo - (m - 1) /\ m - 1 <= fo_scanned N fo <= 2147483647.
Proof.
  intros N fuel epoch sort data query m r fo c Hm He Hr E.
  assert (L := search32_scanned N fuel epoch sort data query m r fo c Hm He E).
  destruct (search_lec N fuel epoch sort data query m r Hm He) as [X|X]; [|rewrite X in E; discriminate].
  rewrite E in X. cbn in X. symmetry in X.
  destruct (search_counts N fuel epoch sort data query m r fo Hm He ltac:(lia) X L) as (c' & E' & U).
  rewrite E in E'. injection E' as <-. unfold upto, int_max in *. lia.
Qed.

(** Which count: a window whose first bound (t_kim, C50) reaches the best so far goes to the first, else one whose second bound
    (t_keogh) does to the second, else one whose third bound (t_keogh2) does to the third; the others are compared by dtw, and only
    these have a distance. *)
Definition plus (c : counts) (a b d e : Z) : counts := mkCounts (c_kim c + a) (c_keogh c + b) (c_keogh2 c + d) (c_dtw c + e).
Theorem C72_which_count : forall N t q order qo uo lo l u (j m r : Z) mean std bsf w c res w' c',
  t_window32 N t q order qo uo lo l u j m r mean std bsf w c = Ok (res, w', c') ->
  exists kim, t_kim N t q j m mean std bsf = Ok kim /\
  (nltb N kim bsf = false -> res = None /\ c' = plus c 1 0 0 0) /\
  (nltb N kim bsf = true -> exists keogh cb1, t_keogh N order t uo lo (w_cb1 N w) j m mean std bsf = Ok (keogh, cb1) /\
    (nltb N keogh bsf = false -> res = None /\ c' = plus c 0 1 0 0) /\
    (nltb N keogh bsf = true -> exists keogh2 cb2, t_keogh2 N order qo (w_cb2 N w) l u m mean std bsf = Ok (keogh2, cb2) /\
      (nltb N keogh2 bsf = false -> res = None /\ c' = plus c 0 0 1 0) /\
      (nltb N keogh2 bsf = true -> exists tz cb dist, t_dtw N tz q cb m r bsf = Ok dist /\ res = Some dist /\ c' = plus c 0 0 0 1))).
Proof.
  intros N t q order qo uo lo l u j m r mean std bsf w c res w' c' E. destruct c as [k1 k2 k3 k4]. unfold t_window32, plus in *. cbn [c_kim c_keogh c_keogh2 c_dtw] in *.
  destruct (t_kim N t q j m mean std bsf) as [kim| | |]; cbn [bind] in E; try discriminate. exists kim. split; [reflexivity|].
  rewrite !Z.add_0_r.
  assert (CK : forall z (f : Z -> counts) (v : scratch N), (n <- chk z;; Ok (@None (num N), v, f n)) = Ok (res, w', c') -> res = None /\ c' = f z).
  { intros z f v X. apply bind_Ok_inv in X as (n & Hn & X). apply chk_inv in Hn as (-> & _). injection X as <- _ <-. auto. }
  destruct (nltb N kim bsf); (split; [intros B; try discriminate B|intros B; try discriminate B]).
  2:{ exact (CK _ _ _ E). }
  destruct (t_keogh N order t uo lo _ j m mean std bsf) as [[keogh cb1]| | |]; cbn [bind] in E; try discriminate. exists keogh, cb1. split; [reflexivity|].
  destruct (nltb N keogh bsf); (split; [intros B'; try discriminate B'|intros B'; try discriminate B']).
  2:{ exact (CK _ _ _ E). }
  destruct (for_ 0 m _ _) as [tz| | |]; cbn [bind] in E; try discriminate.
  destruct (t_keogh2 N order qo _ l u m mean std bsf) as [[keogh2 cb2]| | |]; cbn [bind] in E; try discriminate. exists keogh2, cb2. split; [reflexivity|].
  destruct (nltb N keogh2 bsf); (split; [intros B''; try discriminate B''|intros B''; try discriminate B'']).
  2:{ exact (CK _ _ _ E). }
  destruct (if nltb N keogh2 keogh then _ else _) as [cb| | |]; cbn [bind] in E; try discriminate.
  destruct (t_dtw N tz q cb m r bsf) as [dist| | |] eqn:Ed; cbn [bind] in E; try discriminate. injection E as <- _ <-. exists tz, cb, dist. auto.
Qed.

(** In exact arithmetic, on a file of numbers that is not shorter than the query: the location and the distance of the nearest
    window, and the shares of the points scanned.  The last line counts the first m - 1 points as compared by dtw. *)
Theorem C72_report : forall fuel epoch sort (xs ys extra : list R) (bad : bool) (r : Z),
  6 <= zlen ys <= epoch -> epoch <= 1000000 -> 0 <= r <= zlen ys - 1 -> varying ys -> (forall l : list rx, ordering (zlen l) (sort l)) -> zlen xs < Z.of_nat fuel ->
  zlen ys <= zlen xs <= 2147483647 ->
  exists fo c loc B,
    search32 RX fuel epoch sort (clean xs) (mkNFile RX (map Fin (ys ++ extra)) bad) (zlen ys) r = Ok (fo, c) /\
    nearest xs ys r (zlen xs - zlen ys + 1) loc B /\
    c_kim c + c_keogh c + c_keogh2 c + c_dtw c = zlen xs - zlen ys + 1 /\
    let share k := Fin (100 * IZR k / IZR (zlen xs)) in
    report_of RX fo c = mkReport RX loc (Fin (sqrt B)) (zlen xs) (share (c_kim c)) (share (c_keogh c)) (share (c_keogh2 c)) (share (c_dtw c + (zlen ys - 1))).
Proof.
  intros fuel epoch sort xs ys extra bad r Hm He Hr V Hs Hf Hx.
  destruct (C56_nearest fuel epoch sort xs ys extra bad r Hm Hr V Hs Hf) as (loc & B & E & H).
  rewrite Z.max_l in E by lia.
  destruct (search_counts RX fuel epoch sort _ _ (zlen ys) r _ ltac:(lia) He ltac:(lia) E) as (c & Ec & U); [cbn; unfold int_max; lia|].
  cbn [fo_scanned] in U. destruct U as (U1 & U2 & U3 & U4 & U5).
  assert (HB : (0 <= B)%R).
  { destruct H as (_ & [(-> & _)|(_ & _ & (_ & W) & _)]); [apply IZR_le; lia|]. destruct W as [((p & _ & Ep) & _)|(_ & X)]; [|discriminate].
    destruct (path_cost_rx (map Fin (znormal (zslice xs loc (zlen ys)))) (map Fin (znormal ys)) p (fin_dat _) (fin_dat _)) as (b & Eb & Hb).
    change (num RX) with rx in *. rewrite Eb in Ep. injection Ep as <-. exact Hb. }
  exists (mkFound RX loc (Fin B) (zlen xs)), c, loc, B.
  split; [exact Ec|]. split; [exact H|]. split; [lia|]. cbv zeta.
  assert (Hn : (0 < IZR (zlen xs))%R) by (apply IZR_lt; lia).
  unfold report_of, percent. cbn [fo_loc fo_bsf fo_scanned].
  cbn [nsqrt nmul ndiv nadd nsub nofZ RX rx_sqrt rx_div rx_add].
  destruct (Rlt_dec B 0); [lra|]. destruct (Req_EM_T (IZR (zlen xs)) 0); [lra|]. cbn [rx_mul rx_sub rx_neg rx_add].
  f_equal; f_equal; try (field; lra).
  replace (c_dtw c + (zlen ys - 1)) with (zlen xs - (c_kim c + c_keogh c + c_keogh2 c)) by lia.
  rewrite minus_IZR, !plus_IZR. field. lra.
Qed.
(** A file shorter than the query: m - 1 points reported as scanned, and all of them as compared by dtw, which was not called. *)
Theorem C72_short_file : forall fuel epoch sort (xs ys extra : list R) (bad : bool) (r : Z),
  6 <= zlen ys <= epoch -> epoch <= 1000000 -> 0 <= r <= zlen ys - 1 -> varying ys -> (forall l : list rx, ordering (zlen l) (sort l)) -> zlen xs < Z.of_nat fuel ->
  zlen xs < zlen ys ->
  exists fo c, search32 RX fuel epoch sort (clean xs) (mkNFile RX (map Fin (ys ++ extra)) bad) (zlen ys) r = Ok (fo, c) /\ c_dtw c = 0 /\
    report_of RX fo c = mkReport RX 0 (Fin (IZR (10 ^ 10))) (zlen ys - 1) (Fin 0) (Fin 0) (Fin 0) (Fin 100).
Proof.
  intros fuel epoch sort xs ys extra bad r Hm He Hr V Hs Hf Hx.
  pose proof (C56_short_data fuel epoch sort xs ys extra bad r Hm Hr V Hs Hf Hx) as E.
  destruct (search_counts RX fuel epoch sort _ _ (zlen ys) r _ ltac:(lia) He ltac:(lia) E) as (c & Ec & U); [cbn; unfold int_max; lia|].
  cbn [fo_scanned] in U. destruct U as (U1 & U2 & U3 & U4 & U5).
  assert (K1 : c_kim c = 0) by lia. assert (K2 : c_keogh c = 0) by lia. assert (K3 : c_keogh2 c = 0) by lia.
  exists (mkFound RX 0 (Fin (IZR (10 ^ 20))) (zlen ys - 1)), c. split; [exact Ec|]. split; [lia|].
  assert (Hn : (0 < IZR (zlen ys - 1))%R) by (apply IZR_lt; lia).
  unfold report_of, percent. cbn [fo_loc fo_bsf fo_scanned]. rewrite K1, K2, K3.
  cbn [nsqrt nmul ndiv nadd nsub nofZ RX rx_sqrt rx_div rx_add].
  assert (H20 : (0 <= IZR (10 ^ 20))%R) by (apply IZR_le; lia).
  destruct (Rlt_dec (IZR (10 ^ 20)) 0); [lra|]. destruct (Req_EM_T (IZR (zlen ys - 1)) 0); [lra|]. cbn [rx_mul rx_sub rx_neg rx_add].
  f_equal; f_equal; try (field; lra).
  change (10 ^ 20) with (10 ^ 10 * 10 ^ 10). rewrite mult_IZR. apply sqrt_square. apply IZR_le. lia.
Qed.

(** In doubles the four percentages lie between 0 and 100, for every search that ends and has scanned a point. *)
Definition a_percentage (x : spec_float) : Prop := fin64 x /\ (0 <= val x <= 100)%R.
Lemma rnd_between a b x : generic_format radix2 fexp64 a -> generic_format radix2 fexp64 b -> (a <= x <= b)%R -> (a <= rnd x <= b)%R.
Proof. intros Fa Fb (H1 & H2). rewrite <- (rnd_id a Fa), <- (rnd_id b Fb). split; now apply rnd_le. Qed.
Lemma BIG_100 : (100 < BIG)%R.
Proof. apply Rlt_trans with (bpow radix2 7); [cbn; lra|]. apply bpow_lt. lia. Qed.
Lemma of_count n : 0 <= n <= 2 ^ 53 -> fin64 (f64_ofZ n) /\ pos64 (f64_ofZ n) /\ val (f64_ofZ n) = IZR n.
Proof.
  intros H. destruct (Z.eq_dec n 0) as [->|Hn].
  - split; [|split]; [split; [reflexivity|exact I]|apply pos_zero64|reflexivity].
  - destruct (ofZ_pos n) as (A & B & C & _); [lia|]. auto.
Qed.
Lemma share64 x k i : fin64 x -> pos64 x -> val x = IZR k -> 0 <= k <= i -> 0 < i <= 2 ^ 53 ->
  let y := SFmul prec64 emax64 (SFdiv prec64 emax64 x (f64_ofZ i)) (f64_ofZ 100) in a_percentage y.
Proof.
  intros Fx Px Vx Hk Hi y. destruct (div_pos x i Fx Px Hi) as (Fd & Pd & Vd). destruct (of_count 100) as (F100 & P100 & V100); [lia|].
  assert (Hi0 : (0 < IZR i)%R) by (apply IZR_lt; lia).
  assert (B1 : (0 <= val (SFdiv prec64 emax64 x (f64_ofZ i)) <= 1)%R).
  { rewrite Vd, Vx. apply rnd_between; [apply (format_Z 0); lia|apply (format_Z 1); lia|].
    assert ((0 <= IZR k <= IZR i)%R) by (split; apply IZR_le; lia). split; [apply Rmult_le_pos; [lra|apply Rlt_le, Rinv_0_lt_compat; lra]|].
    apply Rmult_le_reg_r with (IZR i); auto. unfold Rdiv. rewrite Rmult_assoc, Rinv_l by lra. lra. }
  destruct (mul_pos_fin _ _ Fd F100 Pd P100) as (Py & Vy). fold y in Py, Vy. rewrite V100 in Vy.
  assert (B2 : (0 <= rnd (val (SFdiv prec64 emax64 x (f64_ofZ i)) * 100) <= 100)%R).
  { apply rnd_between; [apply (format_Z 0); lia|apply (format_Z 100); lia|]. lra. }
  pose proof BIG_100. rewrite clip_id in Vy by lra. split; [|lra]. apply fin_val_bound; [now apply pos_ok|lra].
Qed.
Lemma sum64 x y a b : fin64 x -> pos64 x -> val x = IZR a -> fin64 y -> pos64 y -> val y = IZR b -> 0 <= a -> 0 <= b -> a + b <= 2 ^ 53 ->
  fin64 (SFadd prec64 emax64 x y) /\ pos64 (SFadd prec64 emax64 x y) /\ val (SFadd prec64 emax64 x y) = IZR (a + b).
Proof.
  intros Fx Px Vx Fy Py Vy Ha Hb Hs. destruct (add_pos64 x y Px Py) as (P & _). destruct (add_rnd x y Fx Fy) as (O & V).
  rewrite Vx, Vy, <- plus_IZR, rnd_id in V by (apply format_Z; lia).
  assert (Hbig : (0 <= IZR (a + b) < BIG)%R).
  { split; [apply IZR_le; lia|]. apply Rle_lt_trans with (IZR (2 ^ 53)); [apply IZR_le; lia|]. change (IZR (2 ^ 53)) with (bpow radix2 53). apply bpow_lt. lia. }
  rewrite clip_id in V by lra. split; [|split; auto]. apply fin_val_bound; auto. rewrite V. lra.
Qed.
Theorem C72_percentages : forall fuel epoch sort data query (m r : Z) fo c,
  1 <= m <= epoch -> epoch <= 1000000 -> 0 <= r < m -> search32 F64 fuel epoch sort data query m r = Ok (fo, c) -> 1 <= fo_scanned F64 fo ->
  let rp := report_of F64 fo c in
  a_percentage (rp_kim F64 rp) /\ a_percentage (rp_keogh F64 rp) /\ a_percentage (rp_keogh2 F64 rp) /\ a_percentage (rp_dtw F64 rp).
Proof.
  intros fuel epoch sort data query m r fo c Hm He Hr E H1 rp.
  destruct (C72_every_window_counted F64 fuel epoch sort data query m r fo c Hm He Hr E) as (U1 & U2 & U3 & U4 & U5 & U6).
  unfold rp, report_of, percent. cbn [rp_kim rp_keogh rp_keogh2 rp_dtw nmul ndiv nadd nsub nofZ F64].
  set (i := fo_scanned F64 fo) in *. assert (Hi : 0 < i <= 2 ^ 53) by lia.
  destruct (of_count (c_kim c)) as (F1 & P1 & V1); [lia|]. destruct (of_count (c_keogh c)) as (F2 & P2 & V2); [lia|]. destruct (of_count (c_keogh2 c)) as (F3 & P3 & V3); [lia|].
  split; [apply share64 with (c_kim c); auto; lia|]. split; [apply share64 with (c_keogh c); auto; lia|]. split; [apply share64 with (c_keogh2 c); auto; lia|].
  destruct (sum64 _ _ _ _ F1 P1 V1 F2 P2 V2) as (F12 & P12 & V12); try lia. destruct (sum64 _ _ _ _ F12 P12 V12 F3 P3 V3) as (Fs & Ps & Vs); try lia.
  destruct (share64 _ _ i Fs Ps Vs) as (Fp & Bp); try lia.
  match type of Fp with fin64 ?Y => set (y := Y) in * end.
  destruct (of_count 100) as (F100 & P100 & V100); [lia|]. destruct (sub_rnd _ _ F100 Fp) as (O & V). rewrite V100 in V.
  assert (B2 : (0 <= rnd (100 - val y) <= 100)%R) by (apply rnd_between; [apply (format_Z 0); lia|apply (format_Z 100); lia|lra]).
  pose proof BIG_100. rewrite clip_id in V by lra. split; [|lra]. apply fin_val_bound; auto. lra.
Qed.
(** A query of one number on an empty file: no point is scanned and the percentages are not numbers. *)
Theorem C72_empty_file_witness : forall epoch, 1 <= epoch <= 1000000 -> exists fo c, let rp := report_of F64 fo c in
  search32 F64 1 epoch (fun l => map Z.of_nat (seq 0 (length l))) (mkNFile F64 [] false) (mkNFile F64 [f64_ofZ 5] false) 1 0 = Ok (fo, c) /\
  fo_scanned F64 fo = 0 /\ rp_kim F64 rp = S754_nan /\ rp_keogh F64 rp = S754_nan /\ rp_keogh2 F64 rp = S754_nan /\ rp_dtw F64 rp = S754_nan.
Proof.
  intros epoch He. exists (mkFound F64 0 (big F64) 0), (mkCounts 0 0 0 0). cbv zeta. split.
  - unfold search32.
    assert (X : match prepare32 F64 (fun l => map Z.of_nat (seq 0 (length l))) (mkNFile F64 [f64_ofZ 5] false) 1 0 with Ok _ => true | _ => false end = true) by (vm_compute; reflexivity).
    destruct (prepare32 F64 _ _ 1 0) as [[qy d]| | |]; try discriminate. clear X. cbn [bind chunks32].
    change (0 =? 0) with true. cbv iota. change (Z.to_nat (1 - 1)) with O. cbn [read_n bind].
    destruct (Z.ltb_spec epoch (zlen (@nil (num F64)))) as [X|_]; [unfold zlen in X; cbn in X; lia|].
    assert (R0 : forall n, read_n F64 n (mkNFile F64 [] false) d = Ok ([], mkNFile F64 [] false, d)) by (intros []; reflexivity).
    rewrite R0. cbn [bind]. change (zlen (@nil (num F64)) =? 0) with true. cbv iota. change (1 - 1 + zlen (@nil (num F64))) with 0.
    rewrite scanned_cases by lia. reflexivity.
  - split; [reflexivity|]. unfold report_of. cbn [fo_scanned c_kim c_keogh c_keogh2 rp_kim rp_keogh rp_keogh2 rp_dtw]. vm_compute. repeat split.
Qed.

(** Twenty numbers in chunks of nine, a query of six: of the fifteen windows ten are pruned by the first bound and five compared; the
    report says 50% pruned and 50% compared. *)
Example C72_case : exists fo c,
  search32 F64 100 9 (fun l => map Z.of_nat (seq 0 (length l))) (mkNFile F64 (map f64_ofZ [3;1;4;1;5;9;2;6;5;3;5;8;9;7;9;3;2;3;8;4]) false)
    (mkNFile F64 (map f64_ofZ [5;8;9;7;9;4]) false) 6 1 = Ok (fo, c) /\ fo_scanned F64 fo = 20 /\ c_kim c = 10 /\ c_dtw c = 5 /\
  SFeqb (rp_kim F64 (report_of F64 fo c)) (f64_ofZ 50) = true /\ SFeqb (rp_dtw F64 (report_of F64 fo c)) (f64_ofZ 50) = true.
Proof.
  assert (X : match search32 F64 100 9 (fun l => map Z.of_nat (seq 0 (length l))) (mkNFile F64 (map f64_ofZ [3;1;4;1;5;9;2;6;5;3;5;8;9;7;9;3;2;3;8;4]) false)
      (mkNFile F64 (map f64_ofZ [5;8;9;7;9;4]) false) 6 1 with
    | Ok (fo, c) => (fo_scanned F64 fo =? 20) && (c_kim c =? 10) && (c_dtw c =? 5) && SFeqb (rp_kim F64 (report_of F64 fo c)) (f64_ofZ 50) && SFeqb (rp_dtw F64 (report_of F64 fo c)) (f64_ofZ 50)
    | _ => false end = true) by (vm_compute; reflexivity).
  destruct (search32 F64 100 9 _ _ _ 6 1) as [[fo c]| | |]; try discriminate. exists fo, c. rewrite !andb_true_iff, !Z.eqb_eq in X.
  destruct X as ((((X1 & X2) & X3) & X4) & X5). auto 10.
Qed.
