(** * The memory actions of API calls fit the session: they are ones that [reshape] allows. *)
From Coq Require Import Arith ZArith Bool Lia String List.
From Verif Require Import Outcome Num Distance TimeSeries Text Dataset.
From Verif Require SessionMem.
From Verif Require Import SessionMemProofs Groups Api.
From Verif Require Import TsProofs GroupSpec GroupProofs GlobalGroup MatchProofs SimProofs SeriesSim SessionProofs SessionMatch ApiProofs LifeProofs SessionMemSpec.
Import SessionMem (mem, cell, CArr, CSet, CGlobal, CLocal, CGroup, series, s_data, s_owner, s_lower, s_upper, mst, m_mem, m_sets,
  mop, MLoad, MUnload, MUnloadAll, MGroup, MLoadGroup, MMatch, MPAA, MIdle).
Import ListNotations.
Open Scope Z_scope.

(** Loops that return. *)
Lemma loop_Ok_idx {S} (I : Z -> S -> Prop) (body : Z -> S -> outcome S) n : forall i s s', loop n i body s = Ok s' -> I i s ->
  (forall j t t', i <= j -> body j t = Ok t' -> I j t -> I (j + 1) t') -> I (i + Z.of_nat n) s'.
Proof.
  induction n as [|n IH]; intros i s s' E H Hb; cbn [loop] in E.
  - injection E as <-. now rewrite Z.add_0_r.
  - apply bind_Ok_inv in E as (t & E1 & E). replace (i + Z.of_nat (Datatypes.S n)) with (i + 1 + Z.of_nat n) by lia.
    apply (IH (i + 1) t s' E); [apply (Hb i s t); auto; lia|]. intros j u u' Hj. apply Hb. lia.
Qed.
Lemma loopb_Ok_idx {S} (I : Z -> S -> Prop) (Q : S -> Prop) (body : Z -> S -> outcome (ctl S)) n : forall i s s', loopb n i body s = Ok s' -> I i s ->
  (forall j t, i <= j -> I j t -> Q t) ->
  (forall j t c, i <= j -> body j t = Ok c -> I j t -> match c with Next t' => I (j + 1) t' | Break t' => Q t' end) -> Q s'.
Proof.
  induction n as [|n IH]; intros i s s' E H Hq Hb; cbn [loopb] in E.
  - injection E as <-. apply (Hq i); auto. lia.
  - apply bind_Ok_inv in E as (c & E1 & E). pose proof (Hb i s c ltac:(lia) E1 H) as Hc. destruct c as [t|t].
    + apply (IH (i + 1) t s' E Hc); [intros j u Hj; apply Hq; lia|]. intros j u c' Hj. apply Hb. lia.
    + injection E as <-. exact Hc.
Qed.

Lemma extract_int_min f f' a : extract conv_int f = (f', Some a) -> int_min <= a.
Proof.
  unfold extract. destruct (is_fail f); [discriminate|]. destruct (skip_space (is_rest f)) as [|c t]; [discriminate|]. unfold conv_int.
  destruct (take_sign (c :: t)) as (neg, t'). destruct (take_digits _ _ _ _ _) as ((v, n), r). destruct (n =? 0); [intros E; injection E as _ <-; unfold int_min; lia|]. cbv zeta.
  destruct (Z.ltb_spec (if neg then - Z.of_N v else Z.of_N v) int_min); [intros E; injection E as _ <-; lia|].
  destruct (int_max <? _); intros E; injection E as _ <-; [unfold int_min, int_max; lia|auto].
Qed.

Section Link.
Context (N : NumOps) (IO : NumIO N) (writable : string -> bool).
Local Notation st := (st N).
Local Notation check := (checkDatasetIndex N).
Local Notation step := (step N IO writable).
Local Notation spaces := (list (option (lspace N))).

Definition counts (l : spaces) : list (option nat) := map (option_map (fun ls => List.length (ls_groups N ls))) l.
Lemma counts_set (l : spaces) i ls : nth_error l i = Some None ->
  total (counts (list_set l i (Some ls))) = (total (counts l) + List.length (ls_groups N ls))%nat.
Proof.
  unfold counts. revert i. induction l as [|x l IH]; intros [|i] E; try discriminate; cbn [nth_error list_set map option_map] in *.
  - injection E as ->. cbn [total option_map]. lia.
  - specialize (IH i E). destruct x; cbn [total option_map]; lia.
Qed.
Lemma counts_None n : total (counts (zrepeat None n)) = 0%nat.
Proof. unfold zrepeat. induction (Z.to_nat n) as [|k IH]; cbn; auto. Qed.
(** No spaces from [j] on; the groups so far. *)
Definition filled (len : Z) (j : Z) (x : spaces) (tot : Z) : Prop :=
  zlen x = len /\ tot = Z.of_nat (total (counts x)) /\ forall k ls, (j <= Z.of_nat k) -> nth_error x k <> Some (Some ls).
Lemma filled_none len j n : zlen (zrepeat None n : spaces) = len -> filled len j (zrepeat None n) 0.
Proof.
  intros L. split; auto. split; [now rewrite counts_None|]. intros k ls _ E. apply nth_error_In in E. apply repeat_spec in E. discriminate.
Qed.
Lemma filled_set len j x tot ls x' : 0 <= j -> filled len j x tot -> zset x j (Some ls) = Ok x' -> filled len (j + 1) x' (tot + zlen (ls_groups N ls)) /\ j < len.
Proof.
  intros Hj (L & T & H) E. unfold zset in E. destruct (Z.ltb_spec j 0); [discriminate|]. destruct (Z.leb_spec (zlen x) j); [discriminate|]. cbn [orb] in E. injection E as <-.
  assert (E0 : nth_error x (Z.to_nat j) = Some None).
  { destruct (nth_error x (Z.to_nat j)) as [[l|]|] eqn:E; auto; [exfalso; exact (H (Z.to_nat j) l ltac:(lia) E)|]. apply nth_error_None in E. unfold zlen in *. lia. }
  split; [|lia]. split; [unfold zlen in *; now rewrite list_set_length|]. split; [rewrite counts_set by auto; unfold zlen; lia|].
  intros k l Hk. rewrite list_set_nth_error_neq by lia. apply H. lia.
Qed.
Lemma group_count h r s name thr clock gs n : global_group N h r s name thr clock = Ok (gs, n) -> n = Z.of_nat (total (spaces_of N gs)).
Proof.
  unfold global_group. intros E. apply bind_Ok_inv in E as (k & _ & E). apply bind_Ok_inv in E as (sp & Es & E). unfold resize_null in Es.
  destruct (_ <? 0); [discriminate|]. injection Es as <-. set (sp0 := zrepeat _ _) in *. apply bind_Ok_inv in E as ((sp1 & tot) & E1 & E). injection E as <- <-.
  unfold for_ in E1. apply (loop_Ok_idx (fun j x => filled (zlen sp0) j (fst x) (snd x))) in E1.
  - destruct E1 as (_ & E1 & _). exact E1.
  - apply filled_none. reflexivity.
  - intros j (x & t) (x' & t') Hj Eb Hf. apply bind_Ok_inv in Eb as (ls & _ & Eb). apply bind_Ok_inv in Eb as (ls' & _ & Eb). apply bind_Ok_inv in Eb as (x2 & Ez & Eb).
    injection Eb as <- <-. eapply filled_set; eauto. lia.
Qed.

(** GlobalGroupSpace.cpp:97-114: an exception comes from the constructor of a space, before any group was made. *)
Definition silent {A} (o : outcome A) : Prop := forall e, o <> Throw e.
Lemma silent_Ok {A} (a : A) : silent (Ok a). Proof. intros e H. discriminate. Qed.
Lemma silent_UB {A} u : silent (@UB A u). Proof. intros e H. discriminate. Qed.
Lemma silent_bind {A B} (o : outcome A) (k : A -> outcome B) : silent o -> (forall a, silent (k a)) -> silent (bind o k).
Proof. intros Ho Hk e H. destruct o as [a|x|u|]; cbn in H; try discriminate; [exact (Hk a e H)|injection H as ->; exact (Ho e eq_refl)]. Qed.
Lemma silent_for {S} lo hi (body : Z -> S -> outcome S) s : (forall i s, silent (body i s)) -> silent (for_ lo hi body s).
Proof.
  intros H. unfold for_. generalize (Z.to_nat (hi - lo)). intros n. revert s lo. induction n as [|n IH]; intros s i; [apply silent_Ok|]. cbn [loop]. apply silent_bind; auto.
Qed.
Lemma silent_zset {A} (l : list A) i x : silent (zset l i x).
Proof. unfold zset. destruct (_ || _); [apply silent_UB|apply silent_Ok]. Qed.
Lemma silent_init {A} (o : option A) : silent (init o).
Proof. destruct o; [apply silent_Ok|apply silent_UB]. Qed.
Lemma silent_loadGroup fin m g : 0 <= g_length N g -> silent (loadGroup N IO fin m g).
Proof.
  intros Hl. unfold loadGroup, ts_new. destruct (Z.ltb_spec (g_length N g) 0); [lia|]. cbn [bind].
  apply silent_bind.
  { apply silent_for. intros i (f, v). destruct (extract _ f) as (f', [x|]); [|apply silent_Ok]. apply silent_bind; [apply silent_zset|]. intros. apply silent_Ok. }
  intros (f, v). destruct (extract conv_int f) as (f', cnt). apply silent_bind; [apply silent_init|]. intros n. apply silent_bind.
  - apply silent_for. intros i (((f1, m1), g1), (ix, st)). destruct (extract conv_int f1) as (f2, i1). destruct (extract conv_int f2) as (f3, i2).
    apply silent_bind; [apply silent_init|]. intros a. apply silent_bind; [apply silent_init|]. intros c. apply silent_bind; [|intros (m2, g2); apply silent_Ok].
    unfold addMember. apply silent_bind; [apply silent_zset|]. intros. apply silent_Ok.
  - intros (((f1, m1), g1), x). apply silent_Ok.
Qed.
Lemma silent_local fin ls : 0 <= ls_length N ls -> silent (local_loadGroups N IO fin ls).
Proof.
  intros Hl. unfold local_loadGroups. destruct (extract conv_int fin) as (f, n). apply silent_bind; [apply silent_init|]. intros k. destruct (k <? 0); [intros e H; discriminate|].
  apply silent_bind; [|intros ((f1, m1), g1); apply silent_Ok]. apply silent_for. intros i ((f1, m1), g1). unfold new_group, ts_new. destruct (Z.ltb_spec (ls_length N ls) 0); [lia|]. cbn [bind].
  apply silent_bind; [apply silent_loadGroup; cbn; lia|]. intros ((f2, m2), g2). apply silent_Ok.
Qed.
Lemma local_load_count fin ls fin' ls' n : local_loadGroups N IO fin ls = Ok (fin', ls', n) -> n = zlen (ls_groups N ls').
Proof.
  unfold local_loadGroups. destruct (extract conv_int fin) as (f, k). intros E. apply bind_Ok_inv in E as (m & _ & E). destruct (Z.ltb_spec m 0); [discriminate|].
  apply bind_Ok_inv in E as (((f1, m1), gs) & E1 & E). injection E as _ <- <-. cbn [ls_groups].
  unfold for_ in E1. apply (loop_Ok_idx (fun j x => zlen (snd x) = j)) in E1; [cbn in E1; lia|reflexivity|].
  intros j ((f2, m2), g2) ((f3, m3), g3) _ Eb Hl. apply bind_Ok_inv in Eb as (g & _ & Eb). apply bind_Ok_inv in Eb as (((f4, m4), g') & _ & Eb). injection Eb as _ _ <-.
  cbn [snd] in *. unfold zlen in *. rewrite app_length. cbn. lia.
Qed.
Lemma load_throws fin s i e : 0 <= i -> (gel <- new_lspace N s i ;; local_loadGroups N IO fin gel) = Throw e -> set_count s * (set_len s - i + 1) < 0.
Proof.
  unfold new_lspace. cbv zeta. intros Hi E. destruct (Z.ltb_spec (set_count s * (set_len s - i + 1)) 0); auto. cbn [bind] in E. exfalso. revert E. apply silent_local. cbn. lia.
Qed.
Lemma load_count s fin gs r : 0 <= set_count s -> global_loadGroups N IO s fin = Ok (gs, r) ->
  Z.of_nat (total (spaces_of N gs)) = match r with inl n => n | inr _ => 0 end.
Proof.
  intros Hc. unfold global_loadGroups. destruct (extract conv_int fin) as (f1, from) eqn:Ef.
  assert (Hfrom : forall a, init from = Ok a -> int_min <= a) by (intros a Ea; destruct from; [injection Ea as ->; eapply extract_int_min; eauto|discriminate]). destruct (extract conv_int f1) as (f2, to_). destruct (extract conv_word f2) as (f3, dist). cbv zeta.
  set (name := match dist with Some w => _ | None => _ end). clearbody name. unfold getDistance.
  assert (X : forall k, match resize_null N (set_len s + 1) with
      | Ok spaces => lenFrom <- init from ;; lenTo <- init to_ ;;
          if int_max <? (if lenFrom <? 0 then lenFrom + 4294967296 else lenFrom) then
            if (if lenFrom <? 0 then lenFrom + 4294967296 else lenFrom) <? (if lenTo <? 0 then lenTo + 4294967296 else lenTo) then UB OutOfBounds
            else Ok (mkGS N spaces name (Some k), inl 0)
          else
            '(fin, spaces, r) <- forb lenFrom (if int_max <? (if lenTo <? 0 then lenTo + 4294967296 else lenTo) then zlen spaces + 1 else lenTo) (fun i st =>
                let '(fin, spaces, r) := st in
                c <- catch (gel <- new_lspace N s i ;; local_loadGroups N IO fin gel) ;;
                match c, r with
                | inr e, _ => Ok (Break (fin, spaces, inr e))
                | inl _, inr e => Ok (Break (fin, spaces, inr e))
                | inl (fin, gel, n), inl total =>
                    spaces <- zset spaces i (Some gel) ;;
                    Ok (Next (fin, spaces, inl (total + n)))
                end) (f3, spaces, inl 0 : Z + exn) ;;
            Ok (mkGS N spaces name (Some k), r)
      | Throw e => Ok (mkGS N [] name (Some k), inr e)
      | UB u => UB u
      | NoFuel => NoFuel
      end = Ok (gs, r) -> Z.of_nat (total (spaces_of N gs)) = match r with inl n => n | inr _ => 0 end).
  { intros k. unfold resize_null. destruct (Z.ltb_spec (set_len s + 1) 0); [intros E; injection E as <- <-; reflexivity|].
    set (sp0 := zrepeat None (set_len s + 1) : spaces). intros E. apply bind_Ok_inv in E as (a & Ea & E). apply bind_Ok_inv in E as (b & _ & E).
    assert (L0 : zlen sp0 = set_len s + 1) by (unfold sp0, zlen, zrepeat; rewrite repeat_length; lia).
    pose proof (filled_none (set_len s + 1) a (set_len s + 1) L0) as F0. fold sp0 in F0.
    destruct (Z.ltb_spec int_max (if a <? 0 then a + 4294967296 else a)) as [Hi|Hi].
    - destruct (_ <? _); [discriminate|]. injection E as <- <-. unfold spaces_of. cbn [gs_spaces]. fold (counts sp0). unfold sp0. rewrite counts_None. reflexivity.
    - assert (Ha0 : 0 <= a) by (specialize (Hfrom a Ea); unfold int_max, int_min in *; destruct (Z.ltb_spec a 0); lia).
      apply bind_Ok_inv in E as (((f4 & sp1) & r1) & E1 & E). injection E as <- <-. unfold spaces_of. cbn [gs_spaces]. fold (counts sp1).
      unfold forb in E1. set (Q := fun x : istream * spaces * (Z + exn) => Z.of_nat (total (counts (snd (fst x)))) = match snd x with inl n => n | inr _ => 0 end).
      refine (loopb_Ok_idx (fun j x => exists n, snd x = inl n /\ filled (set_len s + 1) j (snd (fst x)) n /\ (n = 0 \/ j <= set_len s + 1)) Q _ _ _ _ (f4, sp1, r1) E1 _ _ _).
      + exists 0. cbn [fst snd]. auto.
      + intros j ((f5 & sp2) & r2) _ (n & E2 & (_ & Hn & _) & _). unfold Q. cbn [fst snd] in *. now rewrite E2.
      + intros j ((f5 & sp2) & r2) c Hj Eb (n & E2 & Hf & Hn). cbn [fst snd] in *. subst r2. apply bind_Ok_inv in Eb as (x & Ec & Eb).
        destruct (gel <- new_lspace N s j ;; local_loadGroups N IO f5 gel) as [((f6 & gel) & m)|e|u|] eqn:El; cbn [catch] in Ec; try discriminate; injection Ec as <-.
        * apply bind_Ok_inv in Eb as (sp3 & Ez & Eb). injection Eb as <-. cbn [fst snd]. apply bind_Ok_inv in El as (gel0 & _ & El). apply local_load_count in El. subst m.
          assert (Hp : 0 <= j) by lia. destruct (filled_set _ _ _ _ _ _ Hp Hf Ez) as (Hf' & Hj'). exists (n + zlen (ls_groups N gel)). split; auto. split; auto. right. lia.
        * injection Eb as <-. unfold Q. cbn [fst snd]. destruct Hf as (_ & Hf & _). destruct Hn as [->|Hn]; [auto|]. exfalso.
          assert (Hp : 0 <= j) by lia. pose proof (load_throws _ _ _ _ Hp El) as X. assert (0 <= set_len s - j + 1) by lia. nia. }
  destruct (String.eqb name "euclidean"); [exact (X DPairwise)|]. destruct (String.eqb name "euclidean_dtw"); [exact (X DWarped)|]. intros E. injection E as <- <-. reflexivity.
Qed.

Lemma silent_forb {S} lo hi (body : Z -> S -> outcome (ctl S)) s : (forall i s, silent (body i s)) -> silent (forb lo hi body s).
Proof.
  intros H. unfold forb. generalize (Z.to_nat (hi - lo)). intros n. revert s lo. induction n as [|n IH]; intros s i; [apply silent_Ok|]. cbn [loopb]. apply silent_bind; auto.
  intros [t|t]; [apply IH|apply silent_Ok].
Qed.
Lemma silent_load s fin : silent (global_loadGroups N IO s fin).
Proof.
  unfold global_loadGroups. destruct (extract conv_int fin) as (f1, from). destruct (extract conv_int f1) as (f2, to_). destruct (extract conv_word f2) as (f3, dist). cbv zeta.
  destruct (getDistance _) as [k|e| |]; [|apply silent_Ok|apply silent_UB|intros x H; discriminate].
  destruct (resize_null N _) as [sp0|e| |]; [|apply silent_Ok|apply silent_UB|intros x H; discriminate].
  apply silent_bind; [apply silent_init|]. intros a. apply silent_bind; [apply silent_init|]. intros b.
  destruct (int_max <? _); [destruct (_ <? _); [apply silent_UB|apply silent_Ok]|]. apply silent_bind; [|intros ((f4, sp1), r1); apply silent_Ok].
  apply silent_forb. intros i ((f4, sp1), r1). apply silent_bind.
  - unfold catch. destruct (bind _ _); [apply silent_Ok|apply silent_Ok|apply silent_UB|intros x H; discriminate].
  - intros [((f5, gel), n)|e]; [|apply silent_Ok]. destruct r1; [|apply silent_Ok]. apply silent_bind; [apply silent_zset|]. intros. apply silent_Ok.
Qed.

(** A match changes no numbers of groups. *)
Lemma best_group_length h r ls q dr ls' q' gi d : getBestGroup N h r ls q dr = Ok (ls', q', gi, d) -> List.length (ls_groups N ls') = List.length (ls_groups N ls).
Proof.
  unfold getBestGroup. intros E. apply bind_Ok_inv in E as ((((gs & q1) & d1) & g1) & E1 & E). injection E as <- _ _ _. cbn [ls_groups].
  refine (for_Ok_inv (fun x : bg_state N => List.length (fst (fst (fst x))) = List.length (ls_groups N ls)) _ _ _ _ (gs, q1, d1, g1) E1 eq_refl _).
  intros i (((g2 & q2) & d2) & x2) t' _ Eb Hl. unfold best_group_step in Eb. cbn [fst] in Hl. apply bind_Ok_inv in Eb as (g & _ & Eb). apply bind_Ok_inv in Eb as (((c & q3) & d3) & _ & Eb).
  apply bind_Ok_inv in Eb as (g3 & Ez & Eb). unfold zset in Ez. destruct (_ || _); [discriminate|]. injection Ez as <-.
  destruct (nltb N d3 d2); injection Eb as <-; cbn [fst]; now rewrite list_set_length.
Qed.
Lemma counts_same (l : spaces) i ls ls' : nth_error l i = Some (Some ls) -> List.length (ls_groups N ls') = List.length (ls_groups N ls) -> counts (list_set l i (Some ls')) = counts l.
Proof.
  unfold counts. revert i. induction l as [|x l IH]; intros [|i] E Hl; try discriminate; cbn [nth_error list_set map] in *; [injection E as ->; cbn; now rewrite Hl|].
  f_equal. now apply IH.
Qed.
Lemma match_counts h r s gs q gs' c : global_getBestMatch N h r s gs q = Ok (gs', c) -> spaces_of N gs' = spaces_of N gs.
Proof.
  unfold global_getBestMatch. destruct (_ <=? 1); [discriminate|]. intros E. apply bind_Ok_inv in E as (order & _ & E). apply bind_Ok_inv in E as ((((sp & q1) & d1) & b) & E1 & E).
  assert (X : counts sp = counts (gs_spaces N gs)).
  { refine (for_each_Ok_inv (fun x : gm_state N => counts (fst (fst (fst x))) = counts (gs_spaces N gs)) _ _ _ (sp, q1, d1, b) E1 eq_refl _).
    intros i (((sp2 & q2) & d2) & x2) t' _ Eb Hl. unfold global_match_step in Eb. cbn [fst] in Hl. apply bind_Ok_inv in Eb as (o & Eo & Eb). destruct o as [ls|]; [|discriminate].
    apply bind_Ok_inv in Eb as ((((ls' & q3) & gi) & d3) & Eg & Eb). apply best_group_length in Eg. apply bind_Ok_inv in Eb as (sp3 & Ez & Eb).
    unfold zget in Eo. unfold zset in Ez. destruct (i <? 0); [discriminate|]. destruct (_ <=? i); [discriminate|]. cbn [orb] in Ez. injection Ez as <-.
    destruct (nth_error sp2 (Z.to_nat i)) as [o|] eqn:En; [|discriminate]. injection Eo as ->. rewrite <- Hl, <- (counts_same _ _ _ _ En Eg).
    destruct (nltb N d3 d2); injection Eb as <-; reflexivity. }
  destruct b as [(l & gi)|]; [|discriminate]. apply bind_Ok_inv in E as (o & _ & E). destruct o as [ls|]; [|discriminate]. apply bind_Ok_inv in E as (g & _ & E). apply bind_Ok_inv in E as (c' & _ & E).
  injection E as <- _. exact X.
Qed.

(** ** Datasets have at least zero rows. *)
Definition rows_ok (σ : st) : Prop := forall i d, check σ i = Ok d -> 0 <= set_count (ds_set N d).
Lemma load_rows contents m c seps data cnt len : loadData N IO contents m c seps = Ok (data, cnt, len) -> 0 <= cnt.
Proof.
  unfold loadData. cbv zeta. intros E. apply bind_Ok_inv in E as (((row & n) & dt) & E & E2). injection E2 as _ <- _.
  refine (for_each_Ok_inv (fun x : Z * Z * option (list (num N)) => 0 <= fst (fst x)) _ _ _ (row, n, dt) E _ _); [cbn; lia|].
  intros x ((r & k) & d) t' _ Eb Hr. unfold load_row in Eb. cbv zeta in Eb. cbn [fst] in Hr. apply bind_Ok_inv in Eb as ((n' & d1) & _ & Eb). apply bind_Ok_inv in Eb as ((k' & d2) & _ & Eb).
  injection Eb as <-. cbn [fst]. lia.
Qed.
Lemma init_rows files : rows_ok (st_init N files).
Proof. intros j dj Cj. apply check_iff in Cj as (_ & Cj). cbn in Cj. destruct (Z.to_nat j); discriminate. Qed.
Lemma step_rows σ o σ' : rows_ok σ -> after N (step σ o) = Some σ' -> rows_ok σ'.
Proof.
  intros H A j dj Cj. pose proof (step_effect N IO writable σ o σ' A) as E.
  destruct E as [o0 (Es & Eh)|o0 i d d' C Eb Eh (P1 & P2)|p m c seps n d (En & C & Co & _)|i d C Cn Co Eh|Es Eh|i d d' b0 old new C B Ho B' _ Ec Eh (P1 & P2)|i n d d' new Hn C B Eh (P1 & P2)].
  - apply check_iff in Cj as (Hj & Cj). rewrite Es in Cj. apply (H j). apply check_iff. auto.
  - destruct (Z.eq_dec j i) as [->|Hj]; [|rewrite P2 in Cj by auto; eauto]. assert (dj = d') by congruence. subst dj. rewrite Eb. eauto.
  - destruct (Z.eq_dec j n) as [->|Hj]; [|rewrite Co in Cj by auto; eauto]. assert (dj = d) by congruence. subst dj.
    destruct (step σ (OpLoad N p m c seps)) as [s v|s e| |] eqn:E; cbn in A; try discriminate; injection A as ->; cbn [Api.step] in E.
    + apply load_inv in E as (d1 & contents & data & _ & El & (E1 & C1 & _) & _). assert (d1 = d) by congruence. subst d1. eapply load_rows; eauto.
    + apply load_exn in E. subst σ'. eauto.
  - destruct (Z.eq_dec j i) as [->|Hj]; [now apply Cn in Cj|]. rewrite Co in Cj by auto. eauto.
  - apply check_iff in Cj as (_ & Cj). rewrite Es in Cj. destruct (Z.to_nat j); discriminate.
  - destruct (Z.eq_dec j i) as [->|Hj]; [|rewrite P2 in Cj by auto; eauto]. assert (dj = d') by congruence. subst dj. rewrite Ec. eauto.
  - destruct (Z.eq_dec j i) as [->|Hj]; [|rewrite P2 in Cj by auto; eauto].
    cbn [Api.step] in A. unfold api_PAA in A. rewrite C in A. cbn [lift] in A. destruct (PAA N (st_heap N σ) (ds_set N d) n) as [(h & s')|e| |] eqn:Ep; cbn in A; try discriminate.
    + apply PAA_inv in Ep as (new' & _ & -> & _). injection A as <-. apply check_inv in C as (Hr & C). pose proof (check_put N (with_heap N σ h) i (mkDS N (mkSet (Some (Datatypes.length (st_heap N σ))) (calcPAALength (set_len (ds_set N d)) n) (set_count (ds_set N d)) (set_path (ds_set N d)) (set_norm (ds_set N d))) (ds_groups N d) (ds_thr N d)) Hr) as Cp.
      rewrite Cp in Cj. injection Cj as <-. cbn. apply (H i). apply check_iff. split; [lia|auto].
    + injection A as <-. eauto.
Qed.

(** ** The shapes of a session. *)
Definition dshape (d : dset N) : shape := (isLoaded (ds_set N d), option_map (spaces_of N) (ds_groups N d)).
Definition sshapes (σ : st) : list (option shape) := map (option_map dshape) (st_sets N σ).
Lemma put_shape σ i d d' l : check σ i = Ok d -> l = list_set (st_sets N σ) (Z.to_nat i) (Some d') ->
  exists pre post, sshapes σ = pre ++ Some (dshape d) :: post /\ List.length pre = Z.to_nat i /\ map (option_map dshape) l = pre ++ Some (dshape d') :: post.
Proof.
  intros C ->. apply check_inv in C as (_ & C). apply nth_error_split in C as (l1 & l2 & E & L). exists (map (option_map dshape) l1), (map (option_map dshape) l2).
  unfold sshapes. rewrite E, list_set_at' by auto. rewrite !map_app, map_length. auto.
Qed.
Lemma regroup_shape σ σ' i d d' gs : check σ i = Ok d -> st_sets N σ' = list_set (st_sets N σ) (Z.to_nat i) (Some d') -> ds_set N d' = ds_set N d -> ds_groups N d' = Some gs ->
  exists pre post, sshapes σ = pre ++ Some (isLoaded (ds_set N d), option_map (spaces_of N) (ds_groups N d)) :: post /\ List.length pre = Z.to_nat i /\
    sshapes σ' = pre ++ Some (isLoaded (ds_set N d), Some (spaces_of N gs)) :: post /\ check σ' i = Ok d'.
Proof.
  intros C E Es G. destruct (put_shape _ _ _ _ _ C E) as (pre & post & E1 & L & E2). exists pre, post. split; auto. split; auto. split.
  - etransitivity; [exact E2|]. unfold dshape. now rewrite Es, G.
  - apply check_inv in C as (Hi & C). apply check_iff. split; [lia|]. rewrite E. apply list_set_nth_error_eq. unfold zlen in Hi. lia.
Qed.
Lemma free_cut (l : list (option (dset N))) :
  (first_free N l < List.length l)%nat /\ (exists pre post, l = pre ++ None :: post /\ List.length pre = first_free N l /\ ~ In None pre) \/
  first_free N l = List.length l /\ ~ In None l.
Proof.
  induction l as [|[d|] l IH]; cbn [first_free List.length].
  - right. split; auto.
  - destruct IH as [(H & pre & post & -> & L & Hn)|(H & Hn)].
    + left. split; [lia|]. exists (Some d :: pre), post. cbn. split; auto. split; [lia|]. intros [X|X]; [discriminate|tauto].
    + right. split; [lia|]. intros [X|X]; [discriminate|tauto].
  - left. split; [lia|]. exists [], l. cbn. auto.
Qed.
Lemma idle l : reshape l MIdle l 0.
Proof. constructor. Qed.
Theorem step_reshape σ o σ' a : rows_ok σ -> after N (step σ o) = Some σ' -> drives N IO writable σ o a ->
  reshape (sshapes σ) a (sshapes σ') (Z.to_nat (counted N o (step σ o))) /\ 0 <= counted N o (step σ o).
Proof.
  intros Hr A D.
  assert (Keep : sshapes σ' = sshapes σ -> a = MIdle -> counted N o (step σ o) = 0 -> reshape (sshapes σ) a (sshapes σ') (Z.to_nat (counted N o (step σ o))) /\ 0 <= counted N o (step σ o)).
  { intros -> -> ->. split; [apply idle|lia]. }
  destruct o as [p m c seps|i p c|i| | |i| |i|i thr clock|i p so|i p|r|i q ix a0 b0|i n]; cbn [drives] in D; cbn [counted] in *.
  - (* load *) split; [|lia]. cbn [Z.to_nat]. change (Z.to_nat 0) with 0%nat. cbn [Api.step] in *. destruct (api_load N IO σ p m c seps) as [s v|s e| |] eqn:E; cbn in A; try discriminate; injection A as ->.
    + unfold api_load in E. destruct (st_files N σ p) as [contents|]; [|discriminate]. apply lift_done in E as (((data & cnt) & len) & El & E). cbv zeta in E.
      set (hb := match data with Some l => let '(h, b) := halloc N (st_heap N σ) l in (h, Some b) | None => (st_heap N σ, None) end) in *. destruct hb as (h & b).
      set (d0 := mkDS N (mkSet b len cnt p false) None None) in *. 
      apply lift_done in E as (x & Ex & E). injection E as Es <-. unfold getDatasetInfo in Ex. apply bind_Ok_inv in Ex as (d1 & C1 & Ex). injection Ex as <-. cbn [i_id info_of] in D. rewrite Es in C1.
      destruct D as (d & C & ->). assert (d = d1) by congruence. subst d1. clear C1. apply check_iff in C as (_ & C). rewrite Nat2Z.id in C. subst σ'. cbn [st_sets with_count with_sets] in C. unfold sshapes at 2. cbn [st_sets with_count with_sets].
      destruct (free_cut (st_sets N σ)) as [(Hlt & pre & post & Ecut & Lp & Hn)|(Hn0 & Hn)].
      * rewrite (proj2 (Nat.ltb_lt _ _)) in * by auto. rewrite <- Lp in C |- *. rewrite Ecut in C. unfold sshapes. rewrite Ecut. rewrite list_set_at' in C by auto. rewrite list_set_at' by auto. rewrite nth_error_app2, Nat.sub_diag in C by lia. cbn in C. injection C as <-.
        rewrite !map_app. cbn [map option_map]. change (dshape d0) with (isLoaded (ds_set N d0), @None (list (option nat))). eapply RLoad; [reflexivity|reflexivity|]. apply None_map. exact Hn.
      * rewrite (proj2 (Nat.ltb_ge _ _)) in * by lia. rewrite nth_error_app2, Hn0, Nat.sub_diag in C by lia. cbn in C. injection C as <-.
        rewrite map_app. cbn [map option_map]. change (dshape d0) with (isLoaded (ds_set N d0), @None (list (option nat))). apply RLoadEnd. apply None_map. exact Hn.
    + apply load_exn in E. subst σ'. destruct D as (rows & ->). apply RLoadFail.
  - apply Keep; auto. cbn [Api.step] in A. unfold api_save in A. destruct (check σ i) as [d|e| |]; cbn in A; try discriminate; [|injection A as <-; auto].
    destruct (negb _); [injection A as <-; auto|]. destruct (saveData _ _ _ _ _); cbn in A; try discriminate; injection A as <-; auto.
  - (* unload *) split; [|lia]. change (Z.to_nat 0) with 0%nat. cbn [Api.step] in *. unfold api_unload in *. destruct (check σ i) as [d|e| |] eqn:C; cbn [lift] in *; cbn [after] in A; try discriminate; [|injection A as <-; rewrite D; apply idle].
    injection A as <-. rewrite D. apply check_inv in C as (Hi & C). apply nth_error_split in C as (l1 & l2 & E & L). unfold sshapes. cbn [st_sets with_count with_sets]. rewrite E in *.
    rewrite <- L. rewrite <- (map_length (option_map dshape) l1). unfold zlen in *. rewrite app_length in *. cbn [List.length] in *.
    destruct (Z.eqb_spec i (Z.of_nat (Datatypes.length l1 + Datatypes.S (Datatypes.length l2)) - 1)) as [Ei|Ei].
    + assert (l2 = []) by (destruct l2; auto; cbn in *; lia). subst l2. rewrite removelast_app by discriminate. cbn [removelast]. rewrite app_nil_r. rewrite map_app. cbn [map option_map]. eapply RUnloadEnd. reflexivity.
    + rewrite list_set_at' by (rewrite map_length; reflexivity). rewrite !map_app. cbn [map option_map]. eapply RUnload; [reflexivity|]. destruct l2; [cbn in *; lia|discriminate].
  - split; [|lia]. change (Z.to_nat 0) with 0%nat. cbn in A. injection A as <-. subst a. apply RUnloadAll.
  - apply Keep; auto. cbn in A. injection A as <-. auto.
  - apply Keep; auto. cbn in A. unfold api_info in A. destruct (getDatasetInfo N σ i); cbn in A; try discriminate; injection A as <-; auto.
  - apply Keep; auto. cbn in A. injection A as <-. auto.
  - (* normalize *) apply Keep; auto. cbn [Api.step] in A. unfold api_normalize in A. destruct (check σ i) as [d|e| |] eqn:C; cbn [lift] in A; cbn [after] in A; try discriminate; [|injection A as <-; auto].
    destruct (normalize N _ _) as [((h & s) & (mn & mx))|e| |] eqn:En; cbn [lift] in A; cbn [after] in A; try discriminate; [|injection A as <-; auto]. injection A as <-.
    apply normalize_inv in En as (b & old & new & B & _ & -> & ->).
    destruct (put_shape σ i d (mkDS N (mkSet (Some b) (set_len (ds_set N d)) (set_count (ds_set N d)) (set_path (ds_set N d)) true) (ds_groups N d) (ds_thr N d)) _ C eq_refl) as (pre & post & E1 & L & E2).
    rewrite E1. etransitivity; [exact E2|]. unfold dshape at 1. unfold dshape, isLoaded. cbn. now rewrite B.
  - (* group *) cbn [Api.step] in *. unfold api_group in *. destruct (check σ i) as [d|e| |] eqn:C; cbn [lift] in *; cbn [after] in A; try discriminate; [|injection A as <-; apply Keep; auto].
    destruct (isLoaded (ds_set N d)) eqn:El; cbn [negb] in *; [|cbn [after] in A; injection A as <-; apply Keep; auto].
    destruct D as (sp & (σ2 & d2 & gs2 & A2 & C2 & G2 & ->) & ->). cbv zeta in *.
    destruct (global_group N _ _ _ _ _ _) as [(gs & n)|e| |] eqn:Eg; cbn [after] in A, A2; try discriminate.
    + rewrite A in A2. injection A2 as <-. apply group_count in Eg.
      assert (Es : st_sets N σ' = list_set (st_sets N σ) (Z.to_nat i) (Some (mkDS N (ds_set N d) (Some gs) (Some thr)))) by (injection A as <-; destruct (2 <=? _); reflexivity).
      destruct (regroup_shape _ _ _ _ _ gs C Es eq_refl eq_refl) as (pre & post & E1 & L & E2 & C3). rewrite C3 in C2. injection C2 as <-. injection G2 as <-.
      rewrite E1, E2, <- L, Eg, Nat2Z.id. split; [|lia]. eapply RGroup. reflexivity.
    + rewrite A in A2. injection A2 as <-. injection A as A.
      match type of A with put_set N σ i (Some ?x) = _ => assert (Es : st_sets N σ' = list_set (st_sets N σ) (Z.to_nat i) (Some x)) by (rewrite <- A; reflexivity) end.
      destruct (regroup_shape _ _ _ _ _ (mkGS N [] "euclidean" (Some DPairwise)) C Es eq_refl eq_refl) as (pre & post & E1 & L & E2 & C3). rewrite C3 in C2. injection C2 as <-. injection G2 as <-.
      rewrite E1, E2, <- L. split; [|lia]. exact (RGroup _ pre _ _ post (spaces_of N (mkGS N [] "euclidean" (Some DPairwise))) eq_refl).
  - (* saveGroup *) apply Keep; auto. cbn [Api.step] in A. unfold api_saveGroup in A. destruct (check σ i) as [d|e| |]; cbn [lift after] in A; try discriminate; [|injection A as <-; auto].
    destruct (ds_groups N d); [|injection A as <-; auto]. destruct (negb _); [injection A as <-; auto|]. destruct (init _); cbn [lift after] in A; try discriminate; [|injection A as <-; auto].
    destruct (global_saveGroups _ _ _ _ _); cbn [lift after] in A; try discriminate; injection A as <-; auto.
  - (* loadGroup *) cbn [Api.step] in *. unfold api_loadGroup in *. destruct (check σ i) as [d|e| |] eqn:C; cbn [lift] in *; cbn [after] in A; try discriminate; [|injection A as <-; apply Keep; auto].
    destruct (st_files N σ p) as [t|]; [|cbn [after] in A; injection A as <-; apply Keep; auto].
    destruct (load_header N IO (ds_set N d) (mkIS t false)) as [(fin & thr)|e| |]; cbn [lift] in *; cbn [after] in A; try discriminate; [|injection A as <-; apply Keep; auto].
    destruct D as (sp & (σ2 & d2 & gs2 & A2 & C2 & G2 & ->) & ->).
    destruct (global_loadGroups N IO (ds_set N d) fin) as [(gs & rr)|e| |] eqn:Eg; cbn [lift] in *; cbn [after] in A, A2; try discriminate.
    + cbv zeta in *. apply load_count in Eg; [|exact (Hr i d C)].
      assert (Es : st_sets N σ' = list_set (st_sets N σ) (Z.to_nat i) (Some (mkDS N (ds_set N d) (Some gs) thr))) by (destruct rr; cbn [after] in A; injection A as <-; reflexivity).
      assert (σ2 = σ') by congruence. subst σ2.
      destruct (regroup_shape _ _ _ _ _ gs C Es eq_refl eq_refl) as (pre & post & E1 & L & E2 & C3). rewrite C3 in C2. injection C2 as <-. injection G2 as <-.
      rewrite E1, E2, <- L. destruct rr as [n|e]; (split; [|lia]).
      * rewrite <- Eg, Nat2Z.id. eapply RLoadGroup. reflexivity.
      * assert (X : total (spaces_of N gs) = 0%nat) by lia. change (Z.to_nat 0) with 0%nat. rewrite <- X. eapply RLoadGroup. reflexivity.
    + exfalso. exact (silent_load _ _ _ Eg).
  - apply Keep; auto. cbn in A. injection A as <-. auto.
  - (* match *) split; [|lia]. change (Z.to_nat 0) with 0%nat.
    assert (Es : sshapes σ' = sshapes σ).
    { destruct (step σ (OpMatch N i q ix a0 b0)) as [s v|s e| |] eqn:E; cbn [after] in A; try discriminate; injection A as ->; cbn [Api.step] in E.
      - apply match_inv in E as (d & gs & gs' & c & dq & query & C & _ & _ & G & Em & -> & _). apply match_counts in Em.
        destruct (regroup_shape _ (put_set N σ i (Some (mkDS N (ds_set N d) (Some gs') (ds_thr N d)))) _ _ _ gs' C eq_refl eq_refl eq_refl) as (pre & post & E1 & L & E2 & _). rewrite E1, E2, G, Em. reflexivity.
      - apply (step_exn N IO writable σ (OpMatch N i q ix a0 b0)) in E as [->|[(? & ? & X)|((? & ? & ? & X) & _)]]; [reflexivity|discriminate X|discriminate X]. }
    rewrite Es. destruct (check σ i) as [d|e| |] eqn:C; [|subst a; apply idle..]. destruct (ds_groups N d) as [gs|] eqn:G; [|subst a; apply idle]. destruct D as (env & Fa & ->).
    destruct (put_shape σ i d d _ C eq_refl) as (pre & post & E1 & L & _). rewrite E1, <- L. unfold dshape. rewrite G. cbn [option_map]. eapply RMatch; [reflexivity|].
    refine (Forall_impl _ _ Fa). intros (x, k) (ls & E2 & Hk). exists (List.length (ls_groups N ls)). cbn [fst snd] in *. split; auto. unfold spaces_of. now rewrite nth_error_map, E2.
  - (* PAA *) split; [|lia]. change (Z.to_nat 0) with 0%nat. cbn [Api.step] in *. unfold api_PAA in *. destruct (check σ i) as [d|e| |] eqn:C; cbn [lift] in *; cbn [after] in A; try discriminate; [|injection A as <-; subst a; apply idle].
    destruct (PAA N _ _ _) as [(h & s')|e| |] eqn:Ep; cbn [lift] in *; cbn [after] in A; try discriminate; [|injection A as <-; subst a; apply idle]. subst a. injection A as <-.
    apply PAA_inv in Ep as (new & _ & -> & _).
    match goal with |- reshape _ _ (sshapes (put_set N _ i (Some ?x))) _ => destruct (put_shape σ i d x _ C eq_refl) as (pre & post & E1 & L & E2) end.
    rewrite E1, <- L. unfold dshape in E2 at 2. cbn [ds_set ds_groups isLoaded set_buf] in E2. unfold sshapes. cbn [put_set with_sets with_heap st_sets]. cbn [put_set with_sets with_heap st_sets] in E2.
    rewrite E2. unfold dshape. eapply RPAA. reflexivity.
Qed.
End Link.
