(** * Property C71: how many points the search of the UCR suite can scan with 32-bit ints.

    [calculate32] (Search32.v) is the search with its int arithmetic checked; [nearest] is in SearchSpec.v and [clean], [broken] (a file
    of numbers, and one that goes on with something else) in Properties_Search.v.  [epoch] is EPOCH, 100000 in the code; the theorems
    hold for every value up to a million that is not below the length of the query.  [sort] is what qsort does to the positions. *)
From Coq Require Import ZArith Bool Reals Lra Lia List.
From Verif Require Import Outcome Num RX Lemire LemireProofs Distance Laws F64Base RXLaws F64Laws Spec Numeric Metric Kim.
From Verif Require TsProofs.
From Verif Require Import Trillion TrillionSpec TrillionProofs TrillionBounds Search SearchSpec SearchProofs Properties_Trillion Properties_Search.
From Verif Require Import Ints IntsProofs Search32 Search32Proofs.
Import ListNotations.
Open Scope Z_scope.

(** In any arithmetic: the 32-bit search returns what the unbounded one returns if that has scanned at most 2^31 - 1 points, and
    overflows if it has scanned more. *)
Theorem C71_same_or_overflow : forall N fuel epoch sort data query (m r : Z) fo,
  1 <= m <= epoch -> epoch <= 1000000 -> 0 <= r < m -> calculate N fuel epoch sort data query m r = Ok fo ->
  (fo_scanned N fo <= 2147483647 -> calculate32 N fuel epoch sort data query m r = Ok fo) /\
  (2147483647 < fo_scanned N fo -> calculate32 N fuel epoch sort data query m r = UB IntOverflow).
Proof.
  intros N fuel epoch sort data query m r fo Hm He Hr E. rewrite (search_fit N fuel epoch sort data query m r fo) by (auto; lia).
  unfold int_max. destruct (Z.leb_spec (fo_scanned N fo) 2147483647); split; intros; auto; lia.
Qed.

(** A file of at most 2^31 - 1 numbers: the nearest window is found, with its location. *)
Theorem C71_nearest : forall fuel epoch sort (xs ys extra : list R) (bad : bool) (r : Z),
  6 <= zlen ys <= epoch -> epoch <= 1000000 -> 0 <= r <= zlen ys - 1 -> varying ys -> (forall l : list rx, ordering (zlen l) (sort l)) -> zlen xs < Z.of_nat fuel ->
  zlen xs <= 2147483647 ->
  exists loc B, calculate32 RX fuel epoch sort (clean xs) (mkNFile RX (map Fin (ys ++ extra)) bad) (zlen ys) r = Ok (mkFound RX loc (Fin B) (Z.max (zlen xs) (zlen ys - 1))) /\
    nearest xs ys r (zlen xs - zlen ys + 1) loc B.
Proof.
  intros fuel epoch sort xs ys extra bad r Hm He Hr V Hs Hf Hx.
  destruct (C56_nearest fuel epoch sort xs ys extra bad r Hm Hr V Hs Hf) as (loc & B & E & H). exists loc, B. split; auto.
  apply (C71_same_or_overflow RX fuel epoch sort _ _ (zlen ys) r _ ltac:(lia) He ltac:(lia) E). cbn [fo_scanned]. lia.
Qed.

(** A file of 2^31 numbers or more: signed overflow, whatever the numbers. *)
Theorem C71_overflow : forall fuel epoch sort (xs ys extra : list R) (bad : bool) (r : Z),
  6 <= zlen ys <= epoch -> epoch <= 1000000 -> 0 <= r <= zlen ys - 1 -> varying ys -> (forall l : list rx, ordering (zlen l) (sort l)) -> zlen xs < Z.of_nat fuel ->
  2147483648 <= zlen xs ->
  calculate32 RX fuel epoch sort (clean xs) (mkNFile RX (map Fin (ys ++ extra)) bad) (zlen ys) r = UB IntOverflow.
Proof.
  intros fuel epoch sort xs ys extra bad r Hm He Hr V Hs Hf Hx.
  destruct (C56_nearest fuel epoch sort xs ys extra bad r Hm Hr V Hs Hf) as (loc & B & E & H).
  apply (C71_same_or_overflow RX fuel epoch sort _ _ (zlen ys) r _ ltac:(lia) He ltac:(lia) E). cbn [fo_scanned]. lia.
Qed.

(** A file that goes on with something that is not a number: the search does not end (C56) before it overflows. *)
Lemma chunks32_bad (ys : list R) (r epoch : Z) qy : 6 <= zlen ys -> zlen ys <= epoch -> 0 <= r <= zlen ys - 1 -> epoch <= 1000000 -> SearchProofs.ready (znormal ys) r qy ->
  forall fuel it (f : list R) x (buffer : list R) (t : list rx) (w : scratch RX) (b : best RX) bb c,
  0 <= it -> int_max < it + Z.of_nat fuel -> it <= int_max -> (0 < it -> zlen buffer = epoch) -> zlen t = 2 * zlen ys -> Forall dat_rx t -> SearchProofs.sized (zlen ys) w -> b_bsf _ b = Fin bb -> some_best 0 bb 0 ->
  chunks32 RX fuel epoch qy (zlen ys) r it (mkNFile RX (map Fin f) true) (Some (Fin x)) (map Fin buffer) t w b c = UB IntOverflow.
Proof.
  intros H6 He Hr HE Hq. induction fuel as [|fuel IH]; intros it f x buffer t w b bb c Hit Hfuel Hmax Hbuf Lt Dt Sw Eb HP; [lia|]. cbn [chunks32].
  set (m := zlen ys) in *.
  assert (Hhead : exists hd f' y, (if it =? 0 then read_n RX (Z.to_nat (m - 1)) (mkNFile RX (map Fin f) true) (Some (Fin x)) else Ok (zslice (map Fin buffer) (epoch - m + 1) (m - 1), mkNFile RX (map Fin f) true, Some (Fin x))) = Ok (map Fin hd, mkNFile RX (map Fin f') true, Some (Fin y)) /\ zlen hd = m - 1).
  { destruct (Z.eqb_spec it 0).
    - destruct (read_n_bad (Z.to_nat (m - 1)) f x) as (l & y & f' & E & L). exists l, f', y. split; auto. unfold zlen at 1. rewrite L. lia.
    - exists (zslice buffer (epoch - m + 1) (m - 1)), f, x. rewrite zslice_map. split; auto. apply TsProofs.zslice_len; lia. }
  destruct Hhead as (hd & f' & y & E1 & Lhd). change (num RX) with rx in *. rewrite E1. cbn [bind]. clear E1. rewrite zlen_map. destruct (Z.ltb_spec epoch (zlen hd)); [lia|].
  destruct (read_n_bad (Z.to_nat (epoch - (m - 1))) f' y) as (tl & z & f'' & E2 & L2). change (num RX) with rx in *. rewrite E2. cbn [bind]. rewrite zlen_map.
  assert (Ltl : zlen tl = epoch - (m - 1)) by (unfold zlen at 1; rewrite L2; lia). destruct (Z.eqb_spec (zlen tl) 0); [lia|]. rewrite <- map_app.
  assert (LB : zlen (hd ++ tl) = epoch) by (unfold zlen in *; rewrite app_length; lia).
  destruct (ready_chunk ys r epoch H6 He Hr (hd ++ tl) qy (it * (epoch - m + 1)) some_best t w b bb Hq) as (t' & w' & b' & bb' & E & Lt' & Dt' & Sw' & Eb' & HP'); auto.
  { fold m. lia. } { intros I b0 loc _ _ Hb. unfold some_best in *. split; auto. intros. split; auto. lra. }
  destruct (chunk_lec RX qy epoch m r ltac:(lia) HE it (map Fin (hd ++ tl)) t w b c) as [X|X].
  - fold m in E. change (num RX) with rx in *. rewrite E in X. apply er_inv in X as (c' & X). change (num RX) with rx in *. rewrite X. cbn [bind]. destruct (Z.ltb_spec (m - 1 + zlen tl) epoch); [lia|].
    destruct (Z.eq_dec it int_max) as [->|Hne].
    + rewrite chk_out by lia. reflexivity.
    + rewrite chk_in by (unfold int_min; lia). cbn [bind]. apply IH with (bb := bb'); auto; lia.
  - change (num RX) with rx in *. rewrite X. reflexivity.
Qed.
Theorem C71_bad_file_overflows : forall fuel epoch sort (xs ys extra : list R) (bad : bool) (r : Z),
  6 <= zlen ys <= epoch -> epoch <= 1000000 -> 0 <= r <= zlen ys - 1 -> varying ys -> (forall l : list rx, ordering (zlen l) (sort l)) -> 2147483648 <= Z.of_nat fuel ->
  calculate32 RX fuel epoch sort (broken xs) (mkNFile RX (map Fin (ys ++ extra)) bad) (zlen ys) r = UB IntOverflow.
Proof.
  intros fuel epoch sort xs ys extra bad r (H6 & He) HE Hr V Hs Hf. unfold calculate32. enough (X : search32 RX fuel epoch sort (broken xs) (mkNFile RX (map Fin (ys ++ extra)) bad) (zlen ys) r = UB IntOverflow) by now rewrite X.
  unfold search32. rewrite prepare_same by lia.
  destruct (prepare_ok sort ys extra bad r ltac:(lia) Hr V Hs) as (qy & x & E & Hq). change (num RX) with rx in *. rewrite E. cbn [bind].
  assert (Lz : forall k, 0 <= k -> zlen (zrepeat (Fin 0) k) = k) by (intros; unfold zlen, zrepeat; rewrite repeat_length; lia).
  apply (chunks32_bad ys r epoch qy H6 He Hr HE Hq fuel 0 xs x []) with (bb := IZR (10 ^ 20)); auto; try (unfold int_max; lia); [apply Lz; lia| | |].
  - apply Forall_forall. intros y Hy. apply repeat_spec in Hy. subst. now eexists.
  - repeat split; cbn; apply Lz; lia.
  - unfold some_best. generalize (IZR_le 0 (10 ^ 20) ltac:(lia)); lra.
Qed.

(** A query of six numbers, the order of its positions, and a file of 2^31 numbers meet the hypotheses. *)
Example C71_case : exists (xs ys : list R) (sort : list rx -> list Z), zlen ys = 6 /\ varying ys /\ (forall l : list rx, ordering (zlen l) (sort l)) /\ zlen xs = 2147483648.
Proof.
  exists (zrepeat 0%R 2147483648), [0; 1; 0; 1; 0; 2]%R, in_place. split; [reflexivity|]. split; [|split].
  - exists 0%R, 1%R. cbn. split; [auto|]. split; [auto|]. lra.
  - exact in_place_ordering.
  - unfold zlen, zrepeat. rewrite repeat_length. apply Z2Nat.id. lia.
Qed.
