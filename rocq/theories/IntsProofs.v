(** * The checked operations against the unbounded ones. *)
From Coq Require Import ZArith Bool Lia List Ascii String.
From Verif Require Import Outcome Num Lemire Distance TimeSeries Text Dataset Groups Api GroupSpec Ints.
Import ListNotations.
Open Scope Z_scope.

Lemma chk_in z : int_min <= z <= int_max -> chk z = Ok z.
Proof. intros H. unfold chk. destruct (Z.leb_spec int_min z); [|lia]. destruct (Z.leb_spec z int_max); [|lia]. reflexivity. Qed.
Lemma chk_out z : z < int_min \/ int_max < z -> chk z = UB IntOverflow.
Proof. intros H. unfold chk. destruct (Z.leb_spec int_min z); cbn [andb]; [|reflexivity]. destruct (Z.leb_spec z int_max); [lia|reflexivity]. Qed.
Lemma chk_inv z w : chk z = Ok w -> w = z /\ int_min <= z <= int_max.
Proof. unfold chk. destruct (Z.leb_spec int_min z); cbn [andb]; [|discriminate]. destruct (Z.leb_spec z int_max); [|discriminate]. intros [= <-]. auto. Qed.

(** ** The checked outcome is the unbounded one or an overflow. *)
Definition le32 {A} (o32 o : outcome A) : Prop := o32 = o \/ o32 = UB IntOverflow.
Lemma le32_refl {A} (o : outcome A) : le32 o o.
Proof. now left. Qed.
Lemma le32_bind {A B} (a32 a : outcome A) (k32 k : A -> outcome B) :
  le32 a32 a -> (forall x, le32 (k32 x) (k x)) -> le32 (bind a32 k32) (bind a k).
Proof. intros [->| ->] H; [|now right]. destruct a; cbn [bind]; auto using le32_refl. Qed.
Lemma le32_chk {B} z (k : Z -> outcome B) o : le32 (k z) o -> le32 (bind (chk z) k) o.
Proof.
  intros H. destruct (chk z) as [w| | |] eqn:E; cbn [bind].
  - apply chk_inv in E as (-> & _). exact H.
  - unfold chk in E. destruct (_ && _); discriminate.
  - right. unfold chk in E. destruct (_ && _); [discriminate|]. congruence.
  - unfold chk in E. destruct (_ && _); discriminate.
Qed.
Lemma le32_loop {S} (b32 b : Z -> S -> outcome S) : (forall i s, le32 (b32 i s) (b i s)) ->
  forall n i s, le32 (loop n i b32 s) (loop n i b s).
Proof. intros H. induction n as [|n IH]; intros i s; cbn [loop]; [apply le32_refl|]. apply le32_bind; auto. Qed.
Lemma le32_for {S} (b32 b : Z -> S -> outcome S) lo hi s : (forall i s, le32 (b32 i s) (b i s)) ->
  le32 (for_ lo hi b32 s) (for_ lo hi b s).
Proof. intros. now apply le32_loop. Qed.
Lemma le32_each {A S} (b32 b : A -> S -> outcome S) l : (forall a s, le32 (b32 a s) (b a s)) ->
  forall s, le32 (for_each l b32 s) (for_each l b s).
Proof. intros H. induction l as [|a l IH]; intros s; cbn [for_each]; [apply le32_refl|]. apply le32_bind; auto. Qed.

Lemma le32_loopb {S} (b32 b : Z -> S -> outcome (ctl S)) : (forall i s, le32 (b32 i s) (b i s)) ->
  forall n i s, le32 (loopb n i b32 s) (loopb n i b s).
Proof.
  intros H. induction n as [|n IH]; intros i s; cbn [loopb]; [apply le32_refl|]. apply le32_bind; auto.
  intros [t|t]; [apply IH|apply le32_refl].
Qed.
Lemma le32_forb {S} (b32 b : Z -> S -> outcome (ctl S)) lo hi s : (forall i s, le32 (b32 i s) (b i s)) ->
  le32 (forb lo hi b32 s) (forb lo hi b s).
Proof. intros. now apply le32_loopb. Qed.
Lemma le32_while {S} (c : S -> outcome bool) (b32 b : S -> outcome S) : (forall s, le32 (b32 s) (b s)) ->
  forall n s, le32 (while_ n c b32 s) (while_ n c b s).
Proof.
  intros H. induction n as [|n IH]; intros s; cbn [while_]; (apply le32_bind; [apply le32_refl|]); intros [|]; try apply le32_refl.
  apply le32_bind; auto.
Qed.
Lemma le32_catch {A} (o32 o : outcome A) : le32 o32 o -> le32 (catch o32) (catch o).
Proof. intros [->| ->]; [now left|now right]. Qed.

(** One step of a comparison. *)
Ltac le1 :=
  cbv beta;
  lazymatch goal with
  | |- le32 ?x ?x => apply le32_refl
  | |- le32 (bind (chk _) _) _ => apply le32_chk
  | |- le32 (bind _ _) (bind _ _) => apply le32_bind; [|intro]
  | |- le32 (for_ _ _ _ _) (for_ _ _ _ _) => apply le32_for; intros
  | |- le32 (forb _ _ _ _) (forb _ _ _ _) => apply le32_forb; intros
  | |- le32 (while_ _ _ _ _) (while_ _ _ _ _) => apply le32_while; intros
  | |- le32 (for_each _ _ _) (for_each _ _ _) => apply le32_each; intros
  | |- le32 (catch _) (catch _) => apply le32_catch
  | |- le32 (match ?x with _ => _ end) _ => destruct x
  end.

(** ** Loops that return. *)

(** A checked loop returns like the unbounded one if every check succeeds on the way. *)
Lemma loop_keep {S} (I : Z -> S -> Prop) (b32 b : Z -> S -> outcome S) r : forall n i s,
  loop n i b s = Ok r -> I i s ->
  (forall j t t' m, i <= j < i + Z.of_nat n -> I j t -> b j t = Ok t' -> loop m (j + 1) b t' = Ok r -> b32 j t = Ok t' /\ I (j + 1) t') ->
  loop n i b32 s = Ok r.
Proof.
  induction n as [|n IH]; intros i s E HI H; cbn [loop] in *; [exact E|].
  apply bind_Ok_inv in E as (s' & E1 & E2). destruct (H i s s' n) as (E3 & HI'); auto; [lia|].
  rewrite E3. cbn [bind]. apply IH; auto. intros j t t' m Hj. apply H. lia.
Qed.
Lemma for_keep {S} (I : Z -> S -> Prop) (b32 b : Z -> S -> outcome S) lo hi s r :
  for_ lo hi b s = Ok r -> I lo s ->
  (forall j t t' m, lo <= j < hi -> I j t -> b j t = Ok t' -> loop m (j + 1) b t' = Ok r -> b32 j t = Ok t' /\ I (j + 1) t') ->
  for_ lo hi b32 s = Ok r.
Proof. intros E HI H. unfold for_ in *. eapply (loop_keep I); eauto. intros j t t' m Hj. apply H. lia. Qed.

(** What holds after a loop that returns. *)
Lemma loop_after {S} (I : Z -> S -> Prop) (b : Z -> S -> outcome S) r : forall n i s,
  loop n i b s = Ok r -> I i s ->
  (forall j t t', i <= j < i + Z.of_nat n -> I j t -> b j t = Ok t' -> I (j + 1) t') ->
  I (i + Z.of_nat n) r.
Proof.
  induction n as [|n IH]; intros i s E HI H; cbn [loop] in *.
  - injection E as <-. now rewrite Z.add_0_r.
  - apply bind_Ok_inv in E as (s' & E1 & E2).
    replace (i + Z.of_nat (Datatypes.S n)) with (i + 1 + Z.of_nat n) by lia.
    eapply IH; eauto; [apply (H i s s'); auto; lia|]. intros j t t' Hj. apply H. lia.
Qed.
Lemma for_after {S} (I : Z -> S -> Prop) (b : Z -> S -> outcome S) lo hi s r :
  for_ lo hi b s = Ok r -> I lo s ->
  (forall j t t', lo <= j < hi -> I j t -> b j t = Ok t' -> I (j + 1) t') ->
  I (Z.max lo hi) r.
Proof.
  intros E HI H. unfold for_ in E.
  replace (Z.max lo hi) with (lo + Z.of_nat (Z.to_nat (hi - lo))) by lia.
  eapply loop_after; eauto. intros j t t' Hj. apply H. lia.
Qed.
(** Equal bodies, equal loops. *)
Lemma loop_same {S} (b32 b : Z -> S -> outcome S) : forall n i s,
  (forall j t, i <= j < i + Z.of_nat n -> b32 j t = b j t) -> loop n i b32 s = loop n i b s.
Proof.
  induction n as [|n IH]; intros i s H; cbn [loop]; [reflexivity|]. rewrite H by lia. destruct (b i s); cbn [bind]; auto.
  apply IH. intros j t Hj. apply H. lia.
Qed.
Lemma for_same {S} (b32 b : Z -> S -> outcome S) lo hi s :
  (forall j t, lo <= j < hi -> b32 j t = b j t) -> for_ lo hi b32 s = for_ lo hi b s.
Proof. intros H. apply loop_same. intros j t Hj. apply H. lia. Qed.

Section IntsProofs.
Context (N : NumOps) (IO : NumIO N) (writable : string -> bool).
Local Notation T := (num N).

Lemma loadData_le contents m c sep : le32 (loadData32 N IO contents m c sep) (loadData N IO contents m c sep).
Proof.
  unfold loadData32, loadData. apply le32_chk. apply le32_bind.
  - apply le32_each. intros line ((row & len) & data). unfold load_row32, load_row. apply le32_bind.
    + destruct (row =? 0); [|apply le32_refl]. apply le32_chk, le32_chk, le32_refl.
    + intros (len' & data'). apply le32_bind; [|intros (? & ?); apply le32_refl].
      apply le32_each. intros tok (col & d). unfold load_col32, load_col.
      destruct (c <=? col); [|apply le32_chk, le32_refl].
      apply le32_bind; [apply le32_refl|]. intros v. apply le32_chk, le32_chk, le32_chk, le32_chk.
      apply le32_bind; [apply le32_refl|]. intros d'. apply le32_chk, le32_refl.
  - intros ((row & len) & data). apply le32_chk, le32_refl.
Qed.
Lemma saveData_le h s c : le32 (saveData32 N IO h s c) (saveData N IO h s c).
Proof.
  unfold saveData32, saveData. apply le32_for. intros i out. apply le32_bind; [|intros; apply le32_refl].
  apply le32_for. intros j o. apply le32_bind; [apply le32_refl|]. intros d. apply le32_chk, le32_chk, le32_refl.
Qed.
Lemma normalize_le h s : le32 (normalize32 N h s) (normalize N h s).
Proof.
  unfold normalize32, normalize. apply le32_chk. destruct (_ =? 0); [apply le32_refl|].
  destruct (_ <? 0); [apply le32_refl|]. destruct (set_buf s) as [b|]; [|apply le32_refl].
  apply le32_bind; [apply le32_refl|]. intros data. apply le32_bind.
  - apply le32_for. intros t st. apply le32_chk, le32_refl.
  - intros (mn & mx). assert (M : forall f (data : list T), le32
      (for_ 0 (set_count s) (fun t data => for_ 0 (set_len s) (fun i data => p <- chk (t * set_len s) ;; x <- zget data (p + i) ;; zset data (p + i) (f x)) data) data)
      (map_data N f (set_count s) (set_len s) data)).
    { intros f data'. unfold map_data. apply le32_for. intros t d. apply le32_for. intros i d'. apply le32_chk, le32_refl. }
    apply le32_bind; [|intros; apply le32_refl].
    destruct (neqb N _ _); [destruct (negb _); [apply M|apply le32_refl]|apply M].
Qed.
Lemma PAA_le h s n : le32 (PAA32 N h s n) (PAA N h s n).
Proof.
  unfold PAA32, PAA. destruct (n <=? 0); [apply le32_refl|]. apply le32_chk, le32_chk, le32_chk. unfold calcPAALength.
  destruct (_ <? 0); [apply le32_refl|]. destruct (_ && _); [apply le32_refl|].
  apply le32_bind; [|intros; apply le32_refl]. apply le32_for. intros t nd. apply le32_chk, le32_chk, le32_refl.
Qed.
Lemma new_lspace_le s l : le32 (new_lspace32 N s l) (new_lspace N s l).
Proof. unfold new_lspace32, new_lspace. apply le32_chk, le32_chk, le32_chk, le32_refl. Qed.
Lemma log_progress_le b c t : le32 (log_progress32 b c t) (log_progress b c t).
Proof.
  unfold log_progress32, log_progress. destruct b; [|apply le32_refl]. destruct (_ =? 0); [apply le32_refl|].
  destruct (_ =? 0); [apply le32_chk, le32_refl|apply le32_refl].
Qed.
Lemma insert_one_le k h ratio s thr start idx ls :
  le32 (insert_one32 N k h ratio s thr start idx ls) (insert_one N k h ratio s thr start idx ls).
Proof.
  unfold insert_one32. apply le32_chk, le32_chk. destruct (insert_one _ _ _ _ _ _ _ _ _) as [r| | |]; cbn [bind]; try apply le32_refl.
  apply le32_chk, le32_chk, le32_refl.
Qed.
Lemma generateGroups_le k h ratio s thr b ls :
  le32 (generateGroups32 N k h ratio s thr b ls) (generateGroups N k h ratio s thr b ls).
Proof.
  unfold generateGroups32, generateGroups. apply le32_chk. apply le32_bind; [|intros (? & ?); apply le32_refl].
  apply le32_for. intros start st. apply le32_for. intros idx (ls' & c). apply le32_chk.
  apply le32_bind; [apply log_progress_le|]. intros _. apply le32_bind; [apply insert_one_le|]. intros; apply le32_refl.
Qed.
Lemma global_group_le h ratio s name thr clock :
  le32 (global_group32 N h ratio s name thr clock) (global_group N h ratio s name thr clock).
Proof.
  unfold global_group32, global_group. apply le32_bind; [apply le32_refl|]. intros k. apply le32_chk.
  apply le32_bind; [apply le32_refl|]. intros sp. apply le32_bind; [|intros (? & ?); apply le32_refl].
  apply le32_for. intros i (sp' & t). apply le32_bind; [apply new_lspace_le|]. intros ls.
  apply le32_bind; [apply generateGroups_le|]. intros ls'. apply le32_bind; [apply le32_refl|]. intros sp2. apply le32_chk, le32_refl.
Qed.

(** Distances *)
Lemma band_le ratio k : le32 (band32 N ratio k) (calculateWarpingBandSize N ratio k).
Proof. unfold band32, calculateWarpingBandSize. repeat le1. Qed.
Lemma norm_le total k : le32 (euc_norm_dtw32 N total k) (Ok (euc_norm_dtw N total k)).
Proof. unfold euc_norm_dtw32, euc_norm_dtw. repeat le1. Qed.
Lemma dtw_cell_le a b r i j s : le32 (dtw_cell32 N a b r i j s) (dtw_cell N a b r i j s).
Proof.
  unfold dtw_cell32, dtw_cell. destruct s as (cost & best). destruct (j =? 0); [apply le32_refl|]. do 2 (le1; [apply le32_refl|]).
  apply le32_bind; [|intro; apply le32_refl]. apply le32_chk. destruct (j - r <=? i - 1); cbn [andb]; [|apply le32_refl]. apply le32_chk, le32_refl.
Qed.
Lemma dtw_row_le a b r d i s : le32 (dtw_row32 N a b r d i s) (dtw_row N a b r d i s).
Proof. unfold dtw_row32, dtw_row. destruct s as (cost & dr). apply le32_chk, le32_chk. le1; [|apply le32_refl]. le1. apply dtw_cell_le. Qed.
Lemma warped_le ratio a b d : le32 (warpedDistance32 N ratio a b d) (warpedDistance N ratio a b d).
Proof.
  unfold warpedDistance32, warpedDistance. le1; [apply band_le|]. destruct (_ && _).
  - do 2 (le1; [apply le32_refl|]). apply norm_le.
  - do 4 (le1; [apply le32_refl|]). do 2 apply le32_chk. do 2 (le1; [apply le32_refl|]). le1; [le1; apply dtw_row_le|].
    match goal with |- le32 (let '(_, _) := ?x in _) _ => destruct x as (cost' & dropped) end. le1; [apply le32_refl|]. apply norm_le.
Qed.
Lemma place_le i r : le32 (place32 i r) (Ok (i - r - 1)).
Proof. unfold place32. apply le32_chk. unfold le32, chk. destruct (_ && _); auto. Qed.
Lemma lem1_le t r i s : le32 (lem_body1_32 N t r i s) (lem_body1 N t r i s).
Proof.
  unfold lem_body1_32, lem_body1. le1.
  - destruct (r <? i); [|apply le32_refl]. destruct (place_le i r) as [->| ->]; [apply le32_refl|now right].
  - do 6 (le1; [apply le32_refl|]). repeat le1.
Qed.
Lemma lem2_le t r i s : le32 (lem_body2_32 N t r i s) (lem_body2 N t r i s).
Proof. unfold lem_body2_32, lem_body2. destruct (place_le i r) as [->| ->]; [|now right]. cbn [bind]. repeat le1. Qed.
Lemma lemire_le t r : le32 (lower_upper_lemire32 N t r) (lower_upper_lemire N t r).
Proof.
  unfold lower_upper_lemire32, lower_upper_lemire. do 2 apply le32_chk. do 2 (le1; [apply le32_refl|]). le1; [le1; apply lem1_le|].
  do 2 apply le32_chk. le1; [le1; apply lem2_le|apply le32_refl].
Qed.
Lemma envelope_le h t band : le32 (ts_envelope32 N h t band) (ts_envelope N h t band).
Proof.
  unfold ts_envelope32, ts_envelope, generateKeoghLU.
  assert (X : forall t0, le32 (v <- ts_read N h t ;; '(l, u) <- lower_upper_lemire32 N v (Z.min band (zlen v - 1)) ;; Ok (t0 l u, (l, u)))
    (v <- ts_read N h t ;; '(l, u) <- lower_upper_lemire N v (Z.min band (zlen v - 1)) ;; Ok (t0 l u : ts N, (l, u)))).
  { intros t0. le1; [apply le32_refl|]. le1; [apply lemire_le|apply le32_refl]. }
  destruct (ts_cache t) as [c|]; [|apply X]. destruct (_ =? _); [apply le32_refl|apply X].
Qed.
Lemma keogh_sum_le l u la b d : le32 (keogh_sum32 N l u la b d) (keogh_sum N l u la b d).
Proof. unfold keogh_sum32, keogh_sum. le1; [apply le32_refl|]. apply norm_le. Qed.
Lemma keogh_le h ratio a b d : le32 (keogh_ts32 N h ratio a b d) (keogh_ts N h ratio a b d).
Proof.
  unfold keogh_ts32, keogh_ts. le1; [apply band_le|]. le1; [apply envelope_le|].
  match goal with |- le32 (let '(_, _) := ?x in _) _ => destruct x as (a' & (l & u)) end.
  le1; [apply le32_refl|]. le1; [apply keogh_sum_le|apply le32_refl].
Qed.
Lemma cross_le h ratio a b d : le32 (crossKeogh_ts32 N h ratio a b d) (crossKeogh_ts N h ratio a b d).
Proof.
  unfold crossKeogh_ts32, crossKeogh_ts. le1; [apply keogh_le|]. match goal with |- le32 (let '(_, _) := ?x in _) _ => destruct x as (a' & lb) end.
  destruct (nltb N d lb); [apply le32_refl|]. le1; [apply keogh_le|apply le32_refl].
Qed.
Lemma cascade_le h ratio a b d : le32 (cascade_ts32 N h ratio a b d) (cascade_ts N h ratio a b d).
Proof.
  unfold cascade_ts32, cascade_ts. le1; [apply cross_le|]. match goal with |- le32 (let '(_, _) := ?x in _) _ => destruct x as ((a' & b') & lb) end.
  destruct (nltb N d lb); [apply le32_refl|]. do 2 (le1; [apply le32_refl|]). le1; [apply warped_le|apply le32_refl].
Qed.

(** Matching *)
Lemma series_le s i a b : le32 (getTimeSeries32 N s i a b) (getTimeSeries N s i a b).
Proof. unfold getTimeSeries32. destruct (getTimeSeries N s i a b); cbn [bind]; try apply le32_refl. apply le32_chk, le32_chk, le32_refl. Qed.
Lemma member_le s g c : le32 (member32 N s g c) (getTimeSeries N s (fst c) (snd c) (snd c + g_length N g)).
Proof. unfold member32. apply le32_chk, series_le. Qed.
Lemma prev_le m sub c : le32 (prev_of32 m sub c) (prev_of m sub c).
Proof. unfold prev_of32, prev_of. repeat le1. Qed.
Lemma match_body_le h ratio s m g st : le32 (group_match_body32 N h ratio s m g st) (group_match_body N h ratio s m g st).
Proof.
  unfold group_match_body32, group_match_body. destruct st as (((cur & bd) & bm) & q). le1; [apply member_le|]. le1; [apply cascade_le|].
  match goal with |- le32 (let '(_, _) := ?x in _) _ => destruct x as ((q' & t') & d) end. destruct (nltb N d bd); (le1; [apply prev_le|apply le32_refl]).
Qed.
Lemma group_match_le h ratio s m g q : le32 (group_getBestMatch32 N h ratio s m g q) (group_getBestMatch N h ratio s m g q).
Proof.
  unfold group_getBestMatch32, group_getBestMatch. le1; [le1; apply match_body_le|]. match goal with |- le32 (let '(_, _) := ?x in _) _ => destruct x as (((? & ?) & ?) & ?) end.
  le1; [apply member_le|apply le32_refl].
Qed.
Lemma best_group_le h ratio ls q d : le32 (getBestGroup32 N h ratio ls q d) (getBestGroup N h ratio ls q d).
Proof.
  unfold getBestGroup32, getBestGroup. le1; [|apply le32_refl]. le1. unfold best_group_step32, best_group_step.
  match goal with |- le32 (let '(_, _) := ?x in _) _ => destruct x as (((? & ?) & ?) & ?) end. le1; [apply le32_refl|]. le1; [apply cascade_le|apply le32_refl].
Qed.
Lemma traverse_le ratio q n : le32 (generateTraverseOrder32 N ratio q n) (generateTraverseOrder N ratio q n).
Proof.
  unfold generateTraverseOrder32, generateTraverseOrder. apply le32_chk, le32_chk. le1; [|apply le32_refl]. le1. unfold traverse_body32, traverse_body.
  match goal with |- le32 (let '(_, _) := ?x in _) _ => destruct x as ((((order & low) & high) & ls) & hs) end. le1.
  - destruct (negb _); [|apply le32_refl]. le1; [apply band_le|]. repeat le1.
  - match goal with |- le32 (let '(_, _) := ?x in _) _ => destruct x as ((order' & low') & ls') end. le1; [|apply le32_refl].
    destruct (negb _); [|apply le32_refl]. le1; [apply band_le|]. repeat le1.
Qed.
Lemma global_match_le h ratio s gs q : le32 (global_getBestMatch32 N h ratio s gs q) (global_getBestMatch N h ratio s gs q).
Proof.
  unfold global_getBestMatch32, global_getBestMatch. destruct (_ <=? 1); [apply le32_refl|]. le1; [apply traverse_le|]. le1.
  - le1. unfold global_match_step32, global_match_step. match goal with |- le32 (let '(_, _) := ?x in _) _ => destruct x as (((? & ?) & ?) & ?) end.
    le1; [apply le32_refl|]. match goal with |- le32 (match ?x with _ => _ end) _ => destruct x end; [|apply le32_refl]. le1; [apply best_group_le|apply le32_refl].
  - match goal with |- le32 (let '(_, _) := ?x in _) _ => destruct x as (((sp & qq) & bd) & o) end. destruct o as [(L & gi)|]; [|apply le32_refl].
    le1; [apply le32_refl|]. match goal with |- le32 (match ?x with _ => _ end) _ => destruct x end; [|apply le32_refl]. le1; [apply le32_refl|]. le1; [apply group_match_le|apply le32_refl].
Qed.

(** Group files *)
Lemma save_group_le h m g : le32 (saveGroup32 N IO h m g) (saveGroup N IO h m g).
Proof.
  unfold saveGroup32, saveGroup. le1; [apply le32_refl|]. le1; [|apply le32_refl]. le1. match goal with |- le32 (let '(_, _) := ?x in _) _ => destruct x end.
  le1; [apply prev_le|apply le32_refl].
Qed.
Lemma local_save_le h ls b : le32 (local_saveGroups32 N IO h ls b) (local_saveGroups N IO h ls b).
Proof. unfold local_saveGroups32, local_saveGroups. destruct b; [apply le32_refl|]. le1. le1; [apply save_group_le|apply le32_refl]. Qed.
Lemma global_save_le h gs b : le32 (global_saveGroups32 N IO h gs b) (global_saveGroups N IO h gs b).
Proof.
  unfold global_saveGroups32, global_saveGroups. le1. le1; [apply le32_refl|]. match goal with |- le32 (match ?x with _ => _ end) _ => destruct x end; [|apply le32_refl].
  le1; [apply local_save_le|apply le32_refl].
Qed.
Lemma addMember_le m g i a : le32 (addMember32 N m g i a) (addMember N m g i a).
Proof. unfold addMember32. apply le32_chk, le32_chk, le32_refl. Qed.
Lemma load_group_le fin m g : le32 (loadGroup32 N IO fin m g) (loadGroup N IO fin m g).
Proof.
  unfold loadGroup32, loadGroup. do 2 (le1; [apply le32_refl|]). match goal with |- le32 (let '(_, _) := ?x in _) _ => destruct x as (fin1 & v) end.
  destruct (extract conv_int fin1) as (fin2 & cnt). le1; [apply le32_refl|]. le1; [|apply le32_refl]. le1.
  match goal with |- le32 (let '(_, _) := ?x in _) _ => destruct x as (((fin3 & m') & g') & (index & start)) end.
  destruct (extract conv_int fin3) as (fin4 & i1). destruct (extract conv_int fin4) as (fin5 & i2). do 2 (le1; [apply le32_refl|]). le1; [apply addMember_le|apply le32_refl].
Qed.
Lemma local_load_le fin ls : le32 (local_loadGroups32 N IO fin ls) (local_loadGroups N IO fin ls).
Proof.
  unfold local_loadGroups32, local_loadGroups. destruct (extract conv_int fin) as (fin1 & n). le1; [apply le32_refl|]. match goal with |- le32 (if ?x then _ else _) _ => destruct x end; [apply le32_refl|].
  le1; [|apply le32_refl]. le1. match goal with |- le32 (let '(_, _) := ?x in _) _ => destruct x as ((? & ?) & ?) end. le1; [apply le32_refl|]. le1; [apply load_group_le|apply le32_refl].
Qed.
Lemma global_load_le s fin : le32 (global_loadGroups32 N IO s fin) (global_loadGroups N IO s fin).
Proof.
  unfold global_loadGroups32, global_loadGroups. destruct (extract conv_int fin) as (f1 & lf). destruct (extract conv_int f1) as (f2 & lt). destruct (extract conv_word f2) as (f3 & dw).
  match goal with |- le32 (match ?x with _ => _ end) _ => destruct x end; try apply le32_refl. apply le32_chk.
  match goal with |- le32 (match ?x with _ => _ end) _ => destruct x end; try apply le32_refl. do 2 (le1; [apply le32_refl|]).
  match goal with |- le32 (if ?x then _ else _) _ => destruct x end; [apply le32_refl|]. le1; [|apply le32_refl]. le1.
  match goal with |- le32 (let '(_, _) := ?x in _) _ => destruct x as ((? & ?) & r) end. le1.
  - le1. le1; [apply new_lspace_le|apply local_load_le].
  - match goal with |- le32 (match ?x with _ => _ end) _ => destruct x as [((? & ?) & ?)|e] end; [|apply le32_refl].
    destruct r; [|apply le32_refl]. le1; [apply le32_refl|]. apply le32_chk, le32_refl.
Qed.

Lemma lift_le {A} s (o32 o : outcome A) k : le32 o32 o -> lift N s o32 k = lift N s o k \/ lift N s o32 k = Bad N IntOverflow.
Proof. intros [->| ->]; [now left|now right]. Qed.
Theorem step_le s o : step32 N IO writable s o = step N IO writable s o \/ step32 N IO writable s o = Bad N IntOverflow.
Proof.
  destruct o; cbn [step32 step]; auto.
  - unfold api_load32, api_load. destruct (st_files N s path); auto. apply lift_le, loadData_le.
  - unfold api_save32, api_save. destruct (checkDatasetIndex N s i); cbn [lift]; auto. destruct (negb _); auto. apply lift_le, saveData_le.
  - unfold api_normalize32, api_normalize. destruct (checkDatasetIndex N s i); cbn [lift]; auto. apply lift_le, normalize_le.
  - unfold api_group32, api_group. destruct (checkDatasetIndex N s i); cbn [lift]; auto. destruct (negb _); auto.
    match goal with |- context [global_group32 N ?h ?r ?s ?n ?t ?c] => destruct (global_group_le h r s n t c) as [->| ->] end; auto.
  - unfold api_saveGroup32, api_saveGroup. destruct (checkDatasetIndex N s i) as [d| | |]; cbn [lift]; auto. destruct (ds_groups N d); auto. destruct (negb _); auto.
    destruct (init (ds_thr N d)); cbn [lift]; auto. apply lift_le, global_save_le.
  - unfold api_loadGroup32, api_loadGroup. destruct (checkDatasetIndex N s i) as [d| | |]; cbn [lift]; auto. destruct (st_files N s path); auto.
    destruct (load_header N IO _ _) as [(fin & thr)| | |]; cbn [lift]; auto. apply lift_le, global_load_le.
  - unfold api_match32, api_match. destruct (checkDatasetIndex N s result_idx) as [d| | |]; cbn [lift]; auto. destruct (checkDatasetIndex N s query_idx) as [q| | |]; cbn [lift]; auto.
    destruct (series_le (ds_set N q) index start end_) as [->| ->]; [|now right]. destruct (getTimeSeries N _ _ _ _); cbn [lift]; auto. destruct (ds_groups N d); auto. apply lift_le, global_match_le.
  - unfold api_PAA32, api_PAA. destruct (checkDatasetIndex N s i); cbn [lift]; auto. apply lift_le, PAA_le.
Qed.

(** ** Grouping *)

(** The largest number that the percentage of the progress messages is computed from: the last multiple of
    [t / 5] up to [t], times 100. *)
Definition last_message (t : Z) : Z := t / 5 * (t / (t / 5)).

Lemma log_progress32_Ok b c t u : 0 <= c -> 0 <= t -> log_progress b c t = Ok u ->
  (b = true -> c mod (t / 5) = 0 -> c * 100 <= int_max) -> log_progress32 b c t = Ok u.
Proof.
  intros Hc Ht E H. unfold log_progress, log_progress32 in *. destruct b; [|exact E].
  rewrite Z.quot_div_nonneg in * by lia. destruct (Z.eqb_spec (t / 5) 0); [discriminate E|].
  pose proof (Z.div_pos t 5 Ht ltac:(lia)). rewrite Z.rem_mod_nonneg by lia.
  destruct (Z.eqb_spec (c mod (t / 5)) 0); [|exact E]. rewrite chk_in; [exact E|]. split; [unfold int_min; lia|auto].
Qed.
Lemma log_progress32_inv b c t u : 0 <= c -> 0 <= t -> log_progress32 b c t = Ok u ->
  b = true -> c mod (t / 5) = 0 -> c * 100 <= int_max.
Proof.
  intros Hc Ht E -> M. unfold log_progress32 in E. rewrite Z.quot_div_nonneg in E by lia.
  destruct (Z.eqb_spec (t / 5) 0); [discriminate E|].
  pose proof (Z.div_pos t 5 Ht ltac:(lia)). rewrite Z.rem_mod_nonneg in E by lia. rewrite M in E. cbn [Z.eqb] in E.
  apply bind_Ok_inv in E as (w & E & _). apply chk_inv in E as (_ & E). lia.
Qed.
Lemma multiple_last t c : 5 <= t -> 0 <= c <= t -> c mod (t / 5) = 0 -> c <= last_message t.
Proof.
  intros Ht Hc M. unfold last_message. assert (0 < t / 5) by (apply Z.div_str_pos; lia).
  rewrite (Z.div_mod c (t / 5)) by lia. rewrite M, Z.add_0_r. apply Z.mul_le_mono_nonneg_l; [lia|]. apply Z.div_le_mono; lia.
Qed.
Lemma last_is_multiple t : 5 <= t -> last_message t mod (t / 5) = 0 /\ 1 <= last_message t <= t.
Proof.
  intros Ht. unfold last_message. assert (0 < t / 5) by (apply Z.div_str_pos; lia). split.
  - rewrite Z.mul_comm. apply Z.mod_mul. lia.
  - assert (t / 5 <= t) by (apply Z.div_le_upper_bound; lia).
    assert (1 <= t / (t / 5)) by (apply Z.div_le_lower_bound; lia).
    split; [nia|]. apply Z.mul_div_le. lia.
Qed.
Lemma last_bounds t : 5 <= t -> 5 * last_message t > 4 * t.
Proof.
  intros Ht. unfold last_message. assert (0 < t / 5) by (apply Z.div_str_pos; lia).
  pose proof (Z.div_mod t (t / 5) ltac:(lia)). pose proof (Z.mod_pos_bound t (t / 5) ltac:(lia)).
  pose proof (Z.mul_div_le t 5 ltac:(lia)). lia.
Qed.

Lemma insert_one_shape k h ratio s thr start idx ls ls' : insert_one N k h ratio s thr start idx ls = Ok ls' ->
  ls_length N ls' = ls_length N ls /\ ls_sub N ls' = ls_sub N ls /\
  zlen (ls_groups N ls) <= zlen (ls_groups N ls') <= zlen (ls_groups N ls) + 1.
Proof.
  unfold insert_one. intros E. apply bind_Ok_inv in E as (q & _ & E). apply bind_Ok_inv in E as ((best & bi) & _ & E).
  apply bind_Ok_inv in E as ((gr & bi') & E1 & E). apply bind_Ok_inv in E as (b & _ & E). apply bind_Ok_inv in E as (g & _ & E).
  apply bind_Ok_inv in E as ((m & g') & _ & E). apply bind_Ok_inv in E as (gr' & E2 & E). injection E as <-. cbn.
  assert (L : zlen gr' = zlen gr).
  { unfold zset in E2. destruct ((b <? 0) || (zlen gr <=? b)); [discriminate E2|]. injection E2 as <-. unfold zlen. now rewrite list_set_length. }
  split; [auto|split; [auto|]]. rewrite L. destruct (_ || _).
  - apply bind_Ok_inv in E1 as (x & _ & E1). apply bind_Ok_inv in E1 as (y & _ & E1). injection E1 as <- <-.
    unfold zlen. rewrite app_length. cbn [List.length]. lia.
  - injection E1 as <- <-. lia.
Qed.

Lemma insert_one32_Ok k h ratio s thr start idx ls ls' : insert_one N k h ratio s thr start idx ls = Ok ls' ->
  0 <= start -> start + ls_length N ls <= set_len s -> 0 <= ls_length N ls -> 0 <= idx < set_count s ->
  0 <= ls_sub N ls -> start < ls_sub N ls -> ls_sub N ls <= set_len s -> set_len s <= int_max -> set_count s * set_len s <= int_max ->
  insert_one32 N k h ratio s thr start idx ls = Ok ls'.
Proof.
  intros E H1 H2 H3 H4 H5 H6 H7 H8 H9. unfold insert_one32. rewrite chk_in by (unfold int_min; lia). cbn [bind].
  assert (idx * set_len s <= set_count s * set_len s) by (apply Z.mul_le_mono_nonneg_r; lia).
  rewrite chk_in by (unfold int_min; nia). cbn [bind]. rewrite E. cbn [bind].
  assert (idx * ls_sub N ls + start <= set_count s * ls_sub N ls) by nia.
  assert (set_count s * ls_sub N ls <= set_count s * set_len s) by (apply Z.mul_le_mono_nonneg_l; lia).
  rewrite chk_in by (unfold int_min; nia). cbn [bind]. rewrite chk_in by (unfold int_min; nia). reflexivity.
Qed.

Lemma generateGroups32_Ok k h ratio s thr b ls ls' : generateGroups N k h ratio s thr b ls = Ok ls' ->
  1 <= ls_length N ls <= set_len s -> ls_sub N ls = set_len s - ls_length N ls + 1 -> 0 <= set_count s ->
  set_len s <= int_max -> set_count s * set_len s <= int_max ->
  (b = true -> 5 <= ls_sub N ls * set_count s -> last_message (ls_sub N ls * set_count s) * 100 <= int_max) ->
  generateGroups32 N k h ratio s thr b ls = Ok ls'.
Proof.
  intros E HL Hs Hc HM HP Hlog. unfold generateGroups in E. unfold generateGroups32.
  set (t := ls_sub N ls * set_count s) in *.
  assert (Ht : 0 <= t <= set_count s * set_len s) by (unfold t; nia).
  rewrite chk_in by (unfold int_min; lia). cbn [bind]. apply bind_Ok_inv in E as ((ls1 & c1) & E & E'). injection E' as <-.
  match type of E with for_ _ _ ?b _ = _ => set (B := b) in E end.
  match goal with |- bind (for_ _ _ ?b _) _ = _ => set (B32 := b) end.
  enough (X : for_ 0 (ls_sub N ls) B32 (ls, 0) = Ok (ls1, c1)) by now rewrite X.
  apply (for_keep (fun start st => ls_length N (fst st) = ls_length N ls /\ ls_sub N (fst st) = ls_sub N ls /\ snd st = start * set_count s) B32 B);
    [exact E|cbn; auto|].
  intros start (ls2 & c2) (ls3 & c3) m Hst (A1 & A2 & A3) Eb _. cbn [fst snd] in *. unfold B in Eb. unfold B32.
  set (J := fun (idx : Z) (st : lspace N * Z) => ls_length N (fst st) = ls_length N ls /\ ls_sub N (fst st) = ls_sub N ls /\ snd st = start * set_count s + idx).
  assert (J0 : J 0 (ls2, c2)) by (unfold J; cbn; rewrite A3; repeat split; auto; lia).
  split.
  - apply (for_keep J _ _ _ _ _ _ Eb J0). intros idx (ls4 & c4) (ls5 & c5) m' Hi (B1 & B2 & B3) Ei _. cbn [fst snd] in *.
    apply bind_Ok_inv in Ei as ([] & El & Ei). apply bind_Ok_inv in Ei as (ls6 & En & Ei). injection Ei as -> <-.
    assert (Hct : 0 < c4 + 1 <= t). { unfold t. rewrite B3. nia. }
    rewrite chk_in by (unfold int_min; lia). cbn [bind].
    rewrite (log_progress32_Ok b (c4 + 1) t tt); [|lia|lia|exact El|].
    2:{ intros Hb M. assert (5 <= t).
        { unfold log_progress in El. rewrite Hb in El. destruct (Z.eqb_spec (Z.quot t 5) 0) as [|Nz]; [discriminate El|].
          rewrite Z.quot_div_nonneg in Nz by lia. destruct (Z.lt_ge_cases t 5); [|auto]. rewrite Z.div_small in Nz by lia. lia. }
        pose proof (multiple_last t (c4 + 1) ltac:(auto) ltac:(lia) M). specialize (Hlog Hb ltac:(auto)). lia. }
    cbn [bind]. rewrite (insert_one32_Ok _ _ _ _ _ _ _ _ _ En) by (try rewrite B1; try rewrite B2; lia). cbn [bind].
    split; [reflexivity|]. destruct (insert_one_shape _ _ _ _ _ _ _ _ _ En) as (S1 & S2 & _). unfold J; cbn. rewrite S1, S2, B3. repeat split; auto; lia.
  - assert (JJ : J (Z.max 0 (set_count s)) (ls3, c3)).
    { apply (for_after J _ _ _ _ _ Eb J0). intros idx (ls4 & c4) (ls5 & c5) Hi (B1 & B2 & B3) Ei. cbn [fst snd] in *.
      apply bind_Ok_inv in Ei as ([] & El & Ei). apply bind_Ok_inv in Ei as (ls6 & En & Ei). injection Ei as -> <-.
      destruct (insert_one_shape _ _ _ _ _ _ _ _ _ En) as (S1 & S2 & _). unfold J; cbn. rewrite S1, S2, B3. repeat split; auto; lia. }
    destruct JJ as (A & B' & C). cbn [fst snd] in *. repeat split; auto. rewrite C. lia.
Qed.

(** If the checked grouping of one length returns, no message overflowed. *)
Lemma generateGroups32_inv k h ratio s thr ls ls' : generateGroups32 N k h ratio s thr true ls = Ok ls' ->
  0 <= set_count s -> 0 <= ls_sub N ls -> 5 <= ls_sub N ls * set_count s ->
  last_message (ls_sub N ls * set_count s) * 100 <= int_max.
Proof.
  intros E Hc Hs H5. unfold generateGroups32 in E. set (t := ls_sub N ls * set_count s) in *.
  apply bind_Ok_inv in E as (t' & Et & E). apply chk_inv in Et as (-> & _).
  apply bind_Ok_inv in E as ((ls1 & c1) & E & _).
  set (I := fun (c : Z) => forall x, 1 <= x <= c -> x mod (t / 5) = 0 -> x * 100 <= int_max).
  assert (X : snd (ls1, c1) = Z.max 0 (ls_sub N ls) * set_count s /\ I (snd (ls1, c1))).
  { apply (for_after (fun start st => snd st = start * set_count s /\ I (snd st)) _ _ _ _ _ E); [cbn; split; [lia|]; intros x Hx; lia|].
    intros start (ls2 & c2) (ls3 & c3) Hst (A1 & A2) Eb. cbn [snd] in *.
    assert (Y : snd (ls3, c3) = start * set_count s + Z.max 0 (set_count s) /\ I (snd (ls3, c3))).
    { apply (for_after (fun idx (st : lspace N * Z) => snd st = start * set_count s + idx /\ I (snd st)) _ _ _ _ _ Eb); [cbn; split; [lia|auto]|].
      intros idx (ls4 & c4) (ls5 & c5) Hi (B1 & B2) Ei. cbn [snd] in *.
      apply bind_Ok_inv in Ei as (c' & Ec & Ei). apply chk_inv in Ec as (-> & _).
      apply bind_Ok_inv in Ei as (u & El & Ei). apply bind_Ok_inv in Ei as (ls6 & En & Ei). injection Ei as -> <-.
      split; [lia|]. intros x Hx M. destruct (Z.eq_dec x (c4 + 1)) as [->|]; [|apply B2; auto; lia].
      assert (0 <= start * set_count s) by (apply Z.mul_nonneg_nonneg; lia). eapply (log_progress32_inv true (c4 + 1) t); eauto; lia. }
    cbn [snd] in Y. split; [lia|tauto]. }
  cbn [snd] in X. destruct X as (Xc & XI). destruct (last_is_multiple t H5) as (M & R).
  apply XI; auto. rewrite Xc. replace (Z.max 0 (ls_sub N ls)) with (ls_sub N ls) by lia. fold t. lia.
Qed.

(** One group at most for each subsequence. *)
Lemma generateGroups_groups k h ratio s thr b ls ls' : generateGroups N k h ratio s thr b ls = Ok ls' -> 0 <= set_count s -> 0 <= ls_sub N ls ->
  zlen (ls_groups N ls) <= zlen (ls_groups N ls') <= zlen (ls_groups N ls) + ls_sub N ls * set_count s.
Proof.
  intros E Hc Hs. unfold generateGroups in E. apply bind_Ok_inv in E as ((ls1 & c1) & E & E'). injection E' as <-.
  set (n := fun st : lspace N * Z => zlen (ls_groups N (fst st))).
  assert (X : n (ls, 0) <= n (ls1, c1) <= n (ls, 0) + Z.max 0 (ls_sub N ls) * set_count s).
  { apply (for_after (fun start st => n (ls, 0) <= n st <= n (ls, 0) + start * set_count s) _ _ _ _ _ E); [lia|].
    intros start st st' Hst A Eb.
    assert (Y : n st <= n st' <= n st + Z.max 0 (set_count s)).
    { apply (for_after (fun idx x => n st <= n x <= n st + idx) _ _ _ _ _ Eb); [lia|].
      intros idx (ls4 & c4) (ls5 & c5) Hi B Ei.
      apply bind_Ok_inv in Ei as (u & El & Ei). apply bind_Ok_inv in Ei as (ls6 & En & Ei). injection Ei as -> <-.
      destruct (insert_one_shape _ _ _ _ _ _ _ _ _ En) as (_ & _ & S). unfold n in *. cbn [fst] in *. lia. }
    lia. }
  unfold n in X. cbn [fst] in X. replace (Z.max 0 (ls_sub N ls)) with (ls_sub N ls) in X by lia. lia.
Qed.

Lemma new_lspace_shape s l ls : new_lspace N s l = Ok ls -> ls_length N ls = l /\ ls_sub N ls = set_len s - l + 1 /\ ls_groups N ls = [].
Proof. unfold new_lspace. destruct (_ <? 0); [discriminate|]. intros [= <-]. auto. Qed.
Lemma new_lspace32_Ok s l : 0 <= set_count s -> 1 <= l <= set_len s -> set_len s <= int_max -> set_count s * set_len s <= int_max ->
  new_lspace32 N s l = new_lspace N s l.
Proof.
  intros. unfold new_lspace32, new_lspace. assert (set_count s * (set_len s - l + 1) <= set_count s * set_len s) by (apply Z.mul_le_mono_nonneg_l; lia).
  rewrite chk_in by (unfold int_min; lia). cbn [bind]. rewrite chk_in by (unfold int_min; lia). cbn [bind].
  rewrite chk_in by (unfold int_min; nia). reflexivity.
Qed.

(** The body of the loop over the lengths. *)
Definition gg_body (k : dist_kind) (h : heap N) ratio s thr (clock : Z -> bool) (i : Z) (st : list (option (lspace N)) * Z) : outcome (list (option (lspace N)) * Z) :=
  let '(spaces, total) := st in
  ls <- new_lspace N s i ;;
  ls <- generateGroups N k h ratio s thr (clock i) ls ;;
  spaces <- zset spaces i (Some ls) ;;
  Ok (spaces, total + getNumberOfGroups N ls).
Lemma gg_body_inv k h ratio s thr clock i st st' : gg_body k h ratio s thr clock i st = Ok st' -> 0 <= set_count s -> i <= set_len s ->
  snd st <= snd st' <= snd st + (set_len s - i + 1) * set_count s.
Proof.
  destruct st as (sp & t). unfold gg_body. intros E Hc Hi. apply bind_Ok_inv in E as (ls & El & E). apply bind_Ok_inv in E as (ls' & Eg & E).
  apply bind_Ok_inv in E as (sp' & _ & E). injection E as <-. cbn [snd]. destruct (new_lspace_shape _ _ _ El) as (S1 & S2 & S3).
  assert (0 <= ls_sub N ls) by lia. pose proof (generateGroups_groups _ _ _ _ _ _ _ _ Eg Hc H). rewrite S3 in H0. cbn in H0. unfold getNumberOfGroups. rewrite <- S2. lia.
Qed.
Lemma gg_loop_mono k h ratio s thr clock r : 0 <= set_count s -> forall m i st, loop m i (gg_body k h ratio s thr clock) st = Ok r -> snd st <= snd r.
Proof.
  intros Hc. induction m as [|m IH]; intros i st E; cbn [loop] in E; [injection E as <-; lia|].
  apply bind_Ok_inv in E as (st' & E1 & E2). apply IH in E2. enough (snd st <= snd st') by lia.
  destruct st as (sp & t). unfold gg_body in E1. apply bind_Ok_inv in E1 as (ls & El & E). apply bind_Ok_inv in E as (ls' & Eg & E).
  apply bind_Ok_inv in E as (sp' & _ & E). injection E as <-. cbn [snd]. unfold getNumberOfGroups, zlen. lia.
Qed.

Lemma resize_len n sp : resize_null N n = Ok sp -> 0 <= n /\ zlen sp = n.
Proof.
  unfold resize_null. destruct (Z.ltb_spec n 0); [discriminate|]. intros [= <-]. split; [auto|]. unfold zlen, zrepeat. rewrite repeat_length. lia.
Qed.

(** Grouping within the bounds. *)
Theorem global_group32_Ok h ratio s name thr clock gs n : global_group N h ratio s name thr clock = Ok (gs, n) ->
  0 <= set_count s -> set_len s < int_max -> set_count s * set_len s <= int_max -> n <= int_max ->
  (forall l, 2 <= l <= set_len s -> clock l = true -> 5 <= (set_len s - l + 1) * set_count s -> last_message ((set_len s - l + 1) * set_count s) * 100 <= int_max) ->
  global_group32 N h ratio s name thr clock = Ok (gs, n).
Proof.
  intros E Hc HM HP Hn Hlog. unfold global_group in E. unfold global_group32. apply bind_Ok_inv in E as (k & Ek & E). rewrite Ek. cbn [bind].
  apply bind_Ok_inv in E as (sp & Es & E). destruct (resize_len _ _ Es) as (R0 & R1).
  rewrite chk_in by (unfold int_min; lia). cbn [bind]. rewrite Es. cbn [bind].
  apply bind_Ok_inv in E as ((sp1 & t1) & E & E'). injection E' as <- <-. change (for_ 2 (zlen sp) (gg_body k h ratio s thr clock) (sp, 0) = Ok (sp1, t1)) in E.
  match goal with |- bind (for_ _ _ ?b _) _ = _ => set (B32 := b) end.
  enough (X : for_ 2 (zlen sp) B32 (sp, 0) = Ok (sp1, t1)) by now rewrite X.
  apply (for_keep (fun _ st => 0 <= snd st) B32 (gg_body k h ratio s thr clock)); [exact E|cbn; lia|].
  intros i (sp2 & t2) (sp3 & t3) m Hi A Eb Er. cbn [snd] in *. rewrite R1 in Hi.
  pose proof (gg_body_inv _ _ _ _ _ _ _ _ _ Eb Hc ltac:(lia)) as G. cbn [snd] in G.
  pose proof (gg_loop_mono _ _ _ _ _ _ _ Hc _ _ _ Er) as G2. cbn [snd] in G2.
  split; [|lia]. unfold gg_body in Eb. unfold B32. apply bind_Ok_inv in Eb as (ls & El & Eb).
  rewrite new_lspace32_Ok by lia. rewrite El. cbn [bind]. apply bind_Ok_inv in Eb as (ls' & Eg & Eb).
  destruct (new_lspace_shape _ _ _ El) as (S1 & S2 & S3).
  rewrite (generateGroups32_Ok _ _ _ _ _ _ _ _ Eg) by (rewrite ?S1, ?S2; try lia; intros Hb H5; apply Hlog; auto; lia). cbn [bind].
  apply bind_Ok_inv in Eb as (sp4 & Ez & Eb). rewrite Ez. cbn [bind]. injection Eb as <- <-.
  rewrite chk_in by (unfold int_min; lia). reflexivity.
Qed.

(** What the checked grouping shows when it returns. *)
Theorem global_group32_inv h ratio s name thr clock gs n : global_group32 N h ratio s name thr clock = Ok (gs, n) ->
  0 <= set_count s -> n <= int_max /\
  (forall l, 2 <= l <= set_len s -> clock l = true -> 5 <= (set_len s - l + 1) * set_count s -> last_message ((set_len s - l + 1) * set_count s) * 100 <= int_max).
Proof.
  intros E Hc. unfold global_group32 in E. apply bind_Ok_inv in E as (k & Ek & E). apply bind_Ok_inv in E as (n' & En & E). apply chk_inv in En as (-> & _).
  apply bind_Ok_inv in E as (sp & Es & E). destruct (resize_len _ _ Es) as (R0 & R1).
  apply bind_Ok_inv in E as ((sp1 & t1) & E & E'). injection E' as <- <-.
  set (P := fun l => clock l = true -> 5 <= (set_len s - l + 1) * set_count s -> last_message ((set_len s - l + 1) * set_count s) * 100 <= int_max).
  assert (X : snd (sp1, t1) <= int_max /\ forall l, 2 <= l < Z.max 2 (zlen sp) -> P l).
  { apply (for_after (fun i (st : list (option (lspace N)) * Z) => snd st <= int_max /\ forall l, 2 <= l < i -> P l) _ _ _ _ _ E).
    - cbn. split; [unfold int_max; lia|intros; lia].
    - intros i (sp2 & t2) (sp3 & t3) Hi (A1 & A2) Eb. cbn [snd] in *. apply bind_Ok_inv in Eb as (ls & El & Eb). apply bind_Ok_inv in Eb as (ls' & Eg & Eb).
      apply bind_Ok_inv in Eb as (sp4 & Ez & Eb). apply bind_Ok_inv in Eb as (t4 & Et & Eb). injection Eb as <- <-.
      apply chk_inv in Et as (-> & Et). split; [lia|]. intros l Hl. destruct (Z.eq_dec l i) as [->|]; [|apply A2; lia].
      intros Hb H5. rewrite Hb in Eg.
      assert (El' : new_lspace N s i = Ok ls). { destruct (new_lspace_le s i) as [<-|Q]; congruence. }
      destruct (new_lspace_shape _ _ _ El') as (S1 & S2 & S3).
      pose proof (generateGroups32_inv _ _ _ _ _ _ _ Eg Hc) as G. rewrite S2 in G. apply G; lia. }
  cbn [snd] in X. destruct X as (X1 & X2). split; auto. intros l Hl. apply X2. lia.
Qed.

(** The number of groups is at most the number of subsequences of length 2 and more. *)
Lemma global_group_number h ratio s name thr clock gs n : global_group N h ratio s name thr clock = Ok (gs, n) -> 0 <= set_count s ->
  0 <= n /\ 2 * n <= set_count s * (set_len s * Z.max 0 (set_len s - 1)).
Proof.
  intros E Hc. unfold global_group in E. apply bind_Ok_inv in E as (k & Ek & E).
  apply bind_Ok_inv in E as (sp & Es & E). destruct (resize_len _ _ Es) as (R0 & R1).
  apply bind_Ok_inv in E as ((sp1 & t1) & E & E'). injection E' as <- <-. change (for_ 2 (zlen sp) (gg_body k h ratio s thr clock) (sp, 0) = Ok (sp1, t1)) in E.
  assert (X : 0 <= snd (sp1, t1) /\ 2 * snd (sp1, t1) <= set_count s * ((Z.max 2 (zlen sp) - 2) * (2 * set_len s - (Z.max 2 (zlen sp)) + 1))).
  { apply (for_after (fun i (st : list (option (lspace N)) * Z) => 0 <= snd st /\ 2 * snd st <= set_count s * ((i - 2) * (2 * set_len s - i + 1))) _ _ _ _ _ E).
    - cbn [snd]. lia.
    - intros i st st' Hi (A0 & A) Eb. pose proof (gg_body_inv _ _ _ _ _ _ _ _ _ Eb Hc ltac:(lia)) as G. split; [lia|].
      replace (set_count s * ((i + 1 - 2) * (2 * set_len s - (i + 1) + 1))) with (set_count s * ((i - 2) * (2 * set_len s - i + 1)) + 2 * ((set_len s - i + 1) * set_count s)) by ring. lia. }
  cbn [snd] in X. destruct X as (X0 & X). split; [lia|]. rewrite R1 in X. destruct (Z.le_gt_cases 2 (set_len s + 1)).
  - replace (Z.max 2 (set_len s + 1)) with (set_len s + 1) in X by lia. replace (Z.max 0 (set_len s - 1)) with (set_len s - 1) by lia.
    replace (set_count s * (set_len s * (set_len s - 1))) with (set_count s * ((set_len s + 1 - 2) * (2 * set_len s - (set_len s + 1) + 1))) by ring. exact X.
  - replace (Z.max 2 (set_len s + 1)) with 2 in X by lia. replace (Z.max 0 (set_len s - 1)) with 0 by lia. nia.
Qed.

(** ** Loading *)

(** The number of rows that are read. *)
Definition rows_used (contents : text) (m : Z) : Z :=
  if m <=? 0 then zlen (lines contents) else Z.min m (zlen (lines contents)).
(** The number of columns of the first line. *)
Definition columns (contents : text) (seps : text) : Z :=
  match lines contents with [] => 0 | l :: _ => zlen (tokens seps l) end.

Lemma zlen_cons {A} (a : A) l : zlen (a :: l) = zlen l + 1.
Proof. unfold zlen. cbn [List.length]. lia. Qed.
Lemma zlen_pos {A} (l : list A) : 0 <= zlen l.
Proof. unfold zlen. lia. Qed.

Lemma load_cols_same row len c : 0 <= row -> 0 <= len <= int_max -> 0 <= c -> (row + 1) * len <= int_max ->
  forall toks col (data : list T), 0 <= col -> col + zlen toks <= len ->
  for_each toks (load_col32 N IO row len c) (col, data) = for_each toks (load_col N IO row len c) (col, data).
Proof.
  intros Hr Hl Hc HP. induction toks as [|tok toks IH]; intros col data H0 H1; cbn [for_each]; [reflexivity|].
  rewrite zlen_cons in H1. pose proof (zlen_pos toks).
  assert (E : load_col32 N IO row len c tok (col, data) = load_col N IO row len c tok (col, data)).
  { unfold load_col32, load_col. destruct (Z.leb_spec c col).
    - destruct (parse_value N IO tok); cbn [bind]; auto. rewrite chk_in by (unfold int_min; lia). cbn [bind].
      assert (row * (len - c) + (col - c) <= (row + 1) * len) by nia. assert (0 <= row * (len - c)) by nia.
      rewrite chk_in by (unfold int_min; lia). cbn [bind]. rewrite chk_in by (unfold int_min; lia). cbn [bind].
      rewrite chk_in by (unfold int_min; lia). cbn [bind]. destruct (zset _ _ _); cbn [bind]; auto. rewrite chk_in by (unfold int_min; lia). reflexivity.
    - rewrite chk_in by (unfold int_min; lia). reflexivity. }
  rewrite E. unfold load_col. destruct (c <=? col); cbn [bind].
  - destruct (parse_value N IO tok); cbn [bind]; auto. destruct (zset _ _ _); cbn [bind]; auto. apply IH; lia.
  - apply IH; lia.
Qed.

Lemma load_rows_same rows c seps : 0 <= c ->
  forall ls row len (data : option (list T)), 0 <= row -> row + zlen ls <= rows ->
  (row = 0 -> len = -1 /\ match ls with [] => True | l :: _ => zlen (tokens seps l) <= int_max /\ rows * zlen (tokens seps l) <= int_max end) ->
  (0 < row -> 0 <= len <= int_max /\ rows * len <= int_max) ->
  for_each ls (load_row32 N IO rows c seps) (row, len, data) = for_each ls (load_row N IO rows c seps) (row, len, data) /\
  forall r, for_each ls (load_row N IO rows c seps) (row, len, data) = Ok r -> -1 <= snd (fst r) <= int_max.
Proof.
  intros Hc. induction ls as [|l ls IH]; intros row len data H0 H1 H2 H3; cbn [for_each].
  - split; [reflexivity|]. intros r [= <-]. cbn [fst snd]. destruct (Z.eq_dec row 0) as [E|E]; [destruct (H2 E); unfold int_max; lia|destruct (H3 ltac:(lia)); lia].
  - rewrite zlen_cons in H1. pose proof (zlen_pos ls). set (n := zlen (tokens seps l)) in *. pose proof (zlen_pos (tokens seps l)). fold n in H4.
    unfold load_row32 at 1, load_row at 1. unfold load_row at 2. fold n.
    destruct (Z.eqb_spec row 0) as [E|E].
    + destruct (H2 E) as (_ & B1 & B2). rewrite !chk_in by (unfold int_min; nia). cbn [bind]. rewrite !chk_in by (unfold int_min; nia). cbn [bind].
      rewrite load_cols_same; [|lia|lia|lia|nia|lia|fold n; lia].
      destruct (for_each (tokens seps l) _ _) as [[x d']| | |]; cbn [bind]; try (split; [reflexivity|discriminate]).
      apply IH; lia.
    + destruct (H3 ltac:(lia)) as (B1 & B2). destruct (Z.eqb_spec len n) as [En|]; cbn [negb bind]; [|split; [reflexivity|discriminate]].
      destruct data as [d|]; cbn [bind]; [|split; [reflexivity|discriminate]].
      rewrite load_cols_same; [|lia|lia|lia|nia|lia|fold n; lia].
      destruct (for_each (tokens seps l) _ _) as [[x d']| | |]; cbn [bind]; try (split; [reflexivity|discriminate]).
      apply IH; auto; try lia.
Qed.

Theorem loadData32_in contents m c seps : 0 <= c <= int_max -> zlen (lines contents) <= int_max -> columns contents seps <= int_max ->
  rows_used contents m * columns contents seps <= int_max ->
  loadData32 N IO contents m c seps = loadData N IO contents m c seps.
Proof.
  intros Hc HL HC HP. pose proof (zlen_pos (lines contents)). unfold loadData32, loadData. rewrite chk_in by (unfold int_min; lia). cbn [bind].
  fold (rows_used contents m). set (rows := rows_used contents m) in *.
  assert (R : 0 <= rows <= zlen (lines contents)) by (unfold rows, rows_used; destruct (Z.leb_spec m 0); lia).
  assert (F : zlen (firstn (Z.to_nat rows) (lines contents)) <= rows) by (unfold zlen; rewrite firstn_length; lia).
  destruct (load_rows_same rows c seps ltac:(lia) (firstn (Z.to_nat rows) (lines contents)) 0 (-1) None) as (E & L); try lia.
  { intros _. split; [auto|]. unfold columns in *. destruct (lines contents) as [|l ls]; [now rewrite firstn_nil|].
    destruct (Z.to_nat rows); cbn [firstn]; auto. }
  rewrite E. clear E. destruct (for_each _ _ _) as [[[row len] data]| | |]; cbn [bind]; auto.
  specialize (L _ eq_refl). cbn [fst snd] in L. rewrite chk_in by (unfold int_min, int_max in *; lia). reflexivity.
Qed.
Theorem loadData32_out contents m c seps : int_max < rows_used contents m * columns contents seps ->
  loadData32 N IO contents m c seps = UB IntOverflow.
Proof.
  intros HP. pose proof (zlen_pos (lines contents)). unfold loadData32.
  destruct (Z.le_gt_cases (zlen (lines contents)) int_max); [|rewrite chk_out by lia; reflexivity].
  rewrite chk_in by (unfold int_min; lia). cbn [bind].
  fold (rows_used contents m). set (rows := rows_used contents m) in *. unfold columns in HP.
  destruct (lines contents) as [|l ls] eqn:E; [unfold int_max in HP; lia|].
  pose proof (zlen_pos (tokens seps l)). assert (1 <= rows) by (unfold int_max in HP; nia).
  replace (Z.to_nat rows) with (S (Z.to_nat (rows - 1))) by lia. cbn [firstn for_each]. unfold load_row32 at 1. cbn [Z.eqb].
  destruct (Z.le_gt_cases (zlen (tokens seps l)) int_max); [|rewrite chk_out by lia; reflexivity].
  rewrite chk_in by (unfold int_min; lia). cbn [bind]. rewrite chk_out by lia. reflexivity.
Qed.

(** The sizes of a dataset whose values fit an array. *)
Definition sized (s : tset) : Prop := 0 <= set_count s <= int_max /\ set_len s <= int_max /\ (0 <= set_len s -> set_count s * set_len s <= int_max).

Theorem loadData32_sized contents m c seps data count len p b : loadData32 N IO contents m c seps = Ok (data, count, len) -> 0 <= c ->
  sized (mkSet b len count p false).
Proof.
  intros E Hc. pose proof (zlen_pos (lines contents)). unfold loadData32 in E.
  apply bind_Ok_inv in E as (n & En & E). apply chk_inv in En as (-> & Hn).
  fold (rows_used contents m) in E. set (rows := rows_used contents m) in *.
  assert (R : 0 <= rows <= zlen (lines contents)) by (unfold rows, rows_used; destruct (Z.leb_spec m 0); lia).
  assert (F : zlen (firstn (Z.to_nat rows) (lines contents)) <= rows) by (unfold zlen; rewrite firstn_length; lia).
  apply bind_Ok_inv in E as (((row & length) & data') & E & E'). apply bind_Ok_inv in E' as (il & Ei & E'). apply chk_inv in Ei as (-> & Hi). injection E' as _ <- <-.
  assert (X : forall ls r0 l0 d0, for_each ls (load_row32 N IO rows c seps) (r0, l0, d0) = Ok (row, length, data') -> 0 <= r0 -> r0 + zlen ls <= rows ->
    (r0 = 0 /\ l0 = -1) \/ (0 < r0 /\ 0 <= l0 /\ rows * l0 <= int_max) -> 0 <= row <= rows /\ ((row = 0 /\ length = -1) \/ (0 < row /\ 0 <= length /\ rows * length <= int_max))).
  { induction ls as [|l ls IH]; intros r0 l0 d0 E1 H0 H1 H2; cbn [for_each] in E1.
    - injection E1 as <- <- _. cbn in H1. split; [lia|tauto].
    - rewrite zlen_cons in H1. apply bind_Ok_inv in E1 as (((r1 & l1) & d1) & E1 & E2). pose proof (zlen_pos ls).
      assert (Y : r1 = r0 + 1 /\ 0 <= l1 /\ rows * l1 <= int_max).
      { unfold load_row32 in E1. apply bind_Ok_inv in E1 as ((l2 & d2) & E3 & E1). apply bind_Ok_inv in E1 as ((x & d3) & _ & E1). injection E1 as <- <- <-.
        split; [reflexivity|]. destruct (Z.eqb_spec r0 0).
        - apply bind_Ok_inv in E3 as (n1 & En & E3). apply chk_inv in En as (-> & _). apply bind_Ok_inv in E3 as (n2 & En & E3). apply chk_inv in En as (-> & Hn2). injection E3 as <- <-.
          split; [apply zlen_pos|lia].
        - destruct (negb _); [discriminate E3|]. destruct d0; [|discriminate E3]. injection E3 as <- <-. destruct H2; [lia|tauto]. }
      destruct Y as (-> & Y). apply (IH _ _ _ E2); [lia|lia|right; split; [lia|exact Y]]. }
  destruct (X _ _ _ _ E) as (X1 & X2); [lia|lia|auto|]. unfold sized. cbn [set_count set_len]. split; [lia|]. split; [lia|]. intros Hl.
  destruct X2 as [(X2 & X3)|(X2 & X3 & X4)]; [lia|]. assert (row * (length - c) <= rows * length) by nia. lia.
Qed.

(** ** Saving, normalizing and averaging *)
Lemma offset_in s t : sized s -> 0 <= set_len s -> 0 <= t < set_count s -> int_min <= t * set_len s <= int_max /\ (t + 1) * set_len s <= int_max.
Proof. intros ((A & _) & B & C) L H. specialize (C L). assert ((t + 1) * set_len s <= set_count s * set_len s) by nia. unfold int_min. nia. Qed.

Theorem saveData32_in h s c : sized s -> saveData32 N IO h s c = saveData N IO h s c.
Proof.
  intros S. unfold saveData32, saveData. apply for_same. intros i out Hi. f_equal. apply for_same. intros j o Hj.
  destruct (offset_in s i S ltac:(lia) Hi) as (A & B). destruct (set_data N h s); cbn [bind]; auto. rewrite chk_in by lia. cbn [bind]. rewrite chk_in by (unfold int_min in *; nia). reflexivity.
Qed.
Theorem normalize32_in h s : sized s -> 0 <= set_len s -> normalize32 N h s = normalize N h s.
Proof.
  intros S L. unfold normalize32, normalize. rewrite chk_in by (destruct S as ((A & _) & B & C); specialize (C L); unfold int_min; nia). cbn [bind].
  destruct (_ =? 0); auto. destruct (_ <? 0); auto. destruct (set_buf s) as [b|]; auto. destruct (heap_get N h b) as [data| | |]; cbn [bind]; auto.
  rewrite (for_same (fun t st => _ <- chk (t * set_len s) ;; minmax_row N data (set_len s * set_count s) (set_len s) t st) (minmax_row N data (set_len s * set_count s) (set_len s))).
  2:{ intros j t Hj. destruct (offset_in s j S L Hj) as (A & _). rewrite chk_in by lia. reflexivity. }
  destruct (for_ _ _ _ _) as [(mn & mx)| | |]; cbn [bind]; auto.
  assert (M : forall f (data : list T),
      for_ 0 (set_count s) (fun t data => for_ 0 (set_len s) (fun i data => p <- chk (t * set_len s) ;; x <- zget data (p + i) ;; zset data (p + i) (f x)) data) data
      = map_data N f (set_count s) (set_len s) data).
  { intros f d. unfold map_data. apply for_same. intros j t Hj. apply for_same. intros i d' Hi. destruct (offset_in s j S L Hj) as (A & _). rewrite chk_in by lia. reflexivity. }
  rewrite !M. reflexivity.
Qed.
Lemma paa_len_le l n : 1 <= l -> 1 <= n -> 1 <= calcPAALength l n <= l.
Proof.
  intros. unfold calcPAALength. rewrite Z.quot_div_nonneg by lia. pose proof (Z.div_pos (l - 1) n ltac:(lia) ltac:(lia)).
  assert ((l - 1) / n <= l - 1) by (apply Z.div_le_upper_bound; nia). lia.
Qed.
Lemma paa_len_0 n : 1 <= n -> 0 <= calcPAALength 0 n <= 1.
Proof.
  intros. unfold calcPAALength. destruct (Z.eq_dec n 1) as [->|]; [cbn; lia|].
  change (0 - 1) with (Z.opp 1). rewrite Z.quot_opp_l by lia. rewrite Z.quot_small by lia. lia.
Qed.
Theorem PAA32_in h s n : sized s -> 0 <= set_len s -> PAA32 N h s n = PAA N h s n.
Proof.
  intros S L. unfold PAA32, PAA. destruct (Z.leb_spec n 0); auto. destruct S as ((A & A') & B & C). specialize (C L).
  assert (Q : 0 <= calcPAALength (set_len s) n <= Z.max 1 (set_len s)).
  { destruct (Z.eq_dec (set_len s) 0) as [->|]; [pose proof (paa_len_0 n ltac:(lia)); lia|pose proof (paa_len_le (set_len s) n ltac:(lia) ltac:(lia)); lia]. }
  assert (P : 0 <= set_count s * calcPAALength (set_len s) n <= int_max) by nia.
  rewrite chk_in by (unfold int_min; lia). cbn [bind]. fold (calcPAALength (set_len s) n).
  rewrite chk_in by (unfold int_min, int_max in *; lia). cbn [bind]. rewrite chk_in by (unfold int_min; lia). cbn [bind].
  destruct (_ <? 0); auto. destruct (_ && _); auto. f_equal. apply for_same. intros t nd Ht.
  assert (t * set_len s <= set_count s * set_len s) by nia. assert (t * calcPAALength (set_len s) n <= set_count s * calcPAALength (set_len s) n) by nia.
  rewrite chk_in by (unfold int_min; nia). cbn [bind]. rewrite chk_in by (unfold int_min; nia). reflexivity.
Qed.
End IntsProofs.

(** ** Sessions *)
Section IntsSessions.
Context (N : NumOps) (IO : NumIO N) (writable : string -> bool).

Definition sized_at (o : option (dset N)) : Prop := match o with Some d => sized (ds_set N d) | None => True end.
Definition all_sized (s : st N) : Prop := Forall sized_at (st_sets N s).

Lemma check_nth s i d : checkDatasetIndex N s i = Ok d -> nth_error (st_sets N s) (Z.to_nat i) = Some (Some d).
Proof.
  unfold checkDatasetIndex. destruct (_ || _); [discriminate|]. destruct (nth_error _ _) as [[x|]|]; try discriminate. congruence.
Qed.
Lemma check_sized s i d : all_sized s -> checkDatasetIndex N s i = Ok d -> sized (ds_set N d).
Proof.
  intros A E. apply check_nth, nth_error_In in E. unfold all_sized in A. rewrite Forall_forall in A. exact (A _ E).
Qed.
Lemma Forall_list_set {A} (P : A -> Prop) l n v : Forall P l -> P v -> Forall P (list_set l n v).
Proof. intros H Hv. revert n. induction H; intros [|n]; cbn [list_set]; auto. Qed.
Lemma Forall_removelast {A} (P : A -> Prop) l : Forall P l -> Forall P (removelast l).
Proof. induction 1 as [|x l H Hl IH]; cbn [removelast]; auto. destruct l; auto. Qed.

(** Datasets loaded from a non-negative column on. *)
Definition from_column (o : op N) : Prop := match o with OpLoad _ _ _ c _ => 0 <= c | _ => True end.

Lemma paa_sized h s n h' s' : PAA N h s n = Ok (h', s') -> sized s -> sized s'.
Proof.
  unfold PAA. destruct (Z.leb_spec n 0); [discriminate|]. intros E ((A & A') & B & C).
  assert (Q : calcPAALength (set_len s) n <= Z.max 1 (set_len s)).
  { destruct (Z.lt_ge_cases (set_len s) 1).
    - unfold calcPAALength. assert (Z.quot (set_len s - 1) n <= 0); [|lia].
      replace (set_len s - 1) with (- (1 - set_len s)) by lia. rewrite Z.quot_opp_l by lia. pose proof (Z.quot_pos (1 - set_len s) n ltac:(lia) ltac:(lia)). lia.
    - pose proof (paa_len_le (set_len s) n ltac:(lia) ltac:(lia)). lia. }
  destruct (_ <? 0); [discriminate|]. destruct (_ && _); [discriminate|]. apply bind_Ok_inv in E as (nd & _ & E). injection E as _ <-.
  unfold sized. cbn [set_count set_len]. split; [lia|]. split; [unfold int_max in *; lia|]. intros H0.
  destruct (Z.lt_ge_cases (set_len s) 1); [nia|]. specialize (C ltac:(lia)). nia.
Qed.
Lemma normalize_sized h s h' s' p : normalize N h s = Ok (h', s', p) -> sized s -> sized s'.
Proof.
  unfold normalize. intros E S. destruct (_ =? 0); [discriminate|]. destruct (_ <? 0); [discriminate|]. destruct (set_buf s) as [b|]; [|discriminate].
  apply bind_Ok_inv in E as (d & _ & E). apply bind_Ok_inv in E as ((mn & mx) & _ & E). apply bind_Ok_inv in E as (d' & _ & E). injection E as _ <- _. exact S.
Qed.
Lemma load_sets_sized s sets n d : Forall sized_at (st_sets N s) -> sized (ds_set N d) ->
  sets = (if (n <? List.length (st_sets N s))%nat then list_set (st_sets N s) n (Some d) else st_sets N s ++ [Some d]) -> Forall sized_at sets.
Proof.
  intros A S ->. destruct (_ <? _)%nat; [now apply Forall_list_set|]. apply Forall_app. split; auto.
Qed.

Theorem step32_sized s o s' : all_sized s -> from_column o -> after N (step32 N IO writable s o) = Some s' -> all_sized s'.
Proof.
  intros A F E.
  destruct o; cbn [step32 step from_column] in *.
  - unfold api_load32 in E. destruct (st_files N s path) as [contents|]; [|cbn in E; now injection E as <-].
    destruct (loadData32 N IO contents maxNumRow startCol seps) as [((data & count) & len)| | |] eqn:EL; cbn [lift after] in E; try discriminate; [|now injection E as <-].
    assert (S : forall b, sized (mkSet b len count path false)) by (intros b; eapply loadData32_sized; eauto).
    destruct data as [dt|]; cbn [halloc] in E.
    + match type of E with context [with_count N (with_sets N (with_heap N s ?h) ?sets) ?c] => set (s1 := with_count N (with_sets N (with_heap N s h) sets) c) in E end.
      assert (X : all_sized s1) by (eapply load_sets_sized; [exact A| |reflexivity]; apply S).
      destruct (getDatasetInfo N s1 _); cbn [lift after] in E; try discriminate; injection E as <-; exact X.
    + match type of E with context [with_count N (with_sets N (with_heap N s ?h) ?sets) ?c] => set (s1 := with_count N (with_sets N (with_heap N s h) sets) c) in E end.
      assert (X : all_sized s1) by (eapply load_sets_sized; [exact A| |reflexivity]; apply S).
      destruct (getDatasetInfo N s1 _); cbn [lift after] in E; try discriminate; injection E as <-; exact X.
  - unfold api_save32 in E. destruct (checkDatasetIndex N s i); cbn [lift] in E; try (cbn in E; now injection E as <-) ; try discriminate.
    destruct (negb _); [cbn in E; now injection E as <-|]. destruct (saveData32 _ _ _ _ _); cbn [lift after] in E; try discriminate; injection E as <-; exact A.
  - unfold api_unload in E. destruct (checkDatasetIndex N s i); cbn [lift] in E; try (cbn in E; now injection E as <-) ; try discriminate.
    cbn [after] in E. injection E as <-. unfold all_sized, with_count, with_sets, with_heap. cbn [st_sets]. destruct (_ =? _); [now apply Forall_removelast|]. apply Forall_list_set; cbn; auto.
  - cbn in E. injection E as <-. constructor.
  - cbn in E. now injection E as <-.
  - unfold api_info in E. destruct (getDatasetInfo N s i); cbn in E; try discriminate; now injection E as <-.
  - cbn in E. now injection E as <-.
  - unfold api_normalize32 in E. destruct (checkDatasetIndex N s i) as [d| | |] eqn:ED; cbn [lift] in E; try (cbn in E; now injection E as <-) ; try discriminate.
    destruct (normalize32 N (st_heap N s) (ds_set N d)) as [((h' & set) & (mn & mx))| | |] eqn:EN; cbn [lift after] in E; try discriminate; [|now injection E as <-]. injection E as <-.
    apply Forall_list_set; [exact A|]. cbn. destruct (normalize_le N (st_heap N s) (ds_set N d)) as [Q|Q]; rewrite EN in Q; [|discriminate].
    symmetry in Q. apply (normalize_sized _ _ _ _ _ Q). eapply check_sized; eauto.
  - unfold api_group32 in E. destruct (checkDatasetIndex N s i) as [d| | |] eqn:ED; cbn [lift] in E; try (cbn in E; now injection E as <-) ; try discriminate.
    destruct (negb _); [cbn in E; now injection E as <-|]. destruct (global_group32 _ _ _ _ _ _ _) as [(gs & n)| | |]; cbn [after] in E; try discriminate.
    + assert (X : Forall sized_at (list_set (st_sets N s) (Z.to_nat i) (Some (mkDS N (ds_set N d) (Some gs) (Some threshold))))) by (apply Forall_list_set; [exact A|]; cbn; eapply check_sized; eauto).
      destruct (2 <=? _); injection E as <-; exact X.
    + injection E as <-. apply Forall_list_set; [exact A|]. cbn. eapply check_sized; eauto.
  - destruct (step_le N IO writable s (OpSaveGroup N i path groupSizeOnly)) as [Q|Q]; cbn [step32 step] in Q; rewrite Q in E; [|discriminate]. unfold api_saveGroup in E. destruct (checkDatasetIndex N s i) as [d| | |]; cbn [lift] in E; try (cbn in E; now injection E as <-) ; try discriminate.
    destruct (ds_groups N d); [|cbn in E; now injection E as <-]. destruct (negb _); [cbn in E; now injection E as <-|].
    destruct (init (ds_thr N d)); cbn [lift] in E; try (cbn in E; now injection E as <-) ; try discriminate.
    destruct (global_saveGroups _ _ _ _ _); cbn [lift after] in E; try discriminate; injection E as <-; exact A.
  - destruct (step_le N IO writable s (OpLoadGroup N i path)) as [Q|Q]; cbn [step32 step] in Q; rewrite Q in E; [|discriminate]. unfold api_loadGroup in E. destruct (checkDatasetIndex N s i) as [d| | |] eqn:ED; cbn [lift] in E; try (cbn in E; now injection E as <-) ; try discriminate.
    destruct (st_files N s path); [|cbn in E; now injection E as <-].
    destruct (load_header N IO (ds_set N d) _) as [(fin & thr)| | |]; cbn [lift] in E; try (cbn in E; now injection E as <-) ; try discriminate.
    destruct (global_loadGroups N IO (ds_set N d) fin) as [(gs & r)| | |]; cbn [lift] in E; try (cbn in E; now injection E as <-) ; try discriminate.
    destruct r; cbn [after] in E; injection E as <-; (apply Forall_list_set; [exact A|]; cbn; eapply check_sized; eauto).
  - cbn in E. injection E as <-. exact A.
  - destruct (step_le N IO writable s (OpMatch N result_idx query_idx index start end_)) as [Q|Q]; cbn [step32 step] in Q; rewrite Q in E; [|discriminate]. unfold api_match in E. destruct (checkDatasetIndex N s result_idx) as [d| | |] eqn:ED; cbn [lift] in E; try (cbn in E; now injection E as <-) ; try discriminate.
    destruct (checkDatasetIndex N s query_idx) as [q| | |]; cbn [lift] in E; try (cbn in E; now injection E as <-) ; try discriminate.
    destruct (getTimeSeries N (ds_set N q) index start end_); cbn [lift] in E; try (cbn in E; now injection E as <-) ; try discriminate.
    destruct (ds_groups N d); [|cbn in E; now injection E as <-].
    destruct (global_getBestMatch _ _ _ _ _ _) as [(gs & c)| | |]; cbn [lift after] in E; try (cbn in E; now injection E as <-) ; try discriminate.
    injection E as <-. apply Forall_list_set; [exact A|]. cbn. eapply check_sized; eauto.
  - unfold api_PAA32 in E. destruct (checkDatasetIndex N s i) as [d| | |] eqn:ED; cbn [lift] in E; try (cbn in E; now injection E as <-) ; try discriminate.
    destruct (PAA32 N (st_heap N s) (ds_set N d) n) as [(h' & set)| | |] eqn:EN; cbn [lift after] in E; try discriminate; [|now injection E as <-]. injection E as <-.
    apply Forall_list_set; [exact A|]. cbn. destruct (PAA_le N (st_heap N s) (ds_set N d) n) as [Q|Q]; rewrite EN in Q; [|discriminate].
    symmetry in Q. apply (paa_sized _ _ _ _ _ Q). eapply check_sized; eauto.
Qed.
Theorem run32_sized l : forall s s', all_sized s -> Forall from_column l -> run32 N IO writable s l = Some s' -> all_sized s'.
Proof.
  induction l as [|o l IH]; intros s s' A F E; cbn [run32] in E; [now injection E as <-|]. inversion F; subst.
  destruct (after N (step32 N IO writable s o)) as [s1|] eqn:E1; [|discriminate].
  apply (IH s1 s'); auto. apply (step32_sized s o); auto.
Qed.
End IntsSessions.
