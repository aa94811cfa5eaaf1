(** * Property C59: the memory of series.

    Programs of series operations run in two worlds: with pointers and explicit allocation ([mrun], SeriesMem.v, a transcription of
    src/TimeSeries.{hpp,cpp}), and with values ([vrun], SeriesSpec.v), where nothing can be freed twice or used after it was freed. *)
From Coq Require Import ZArith Bool Lia String List.
From Verif Require Import Outcome Num Distance TimeSeries SeriesMem SeriesSpec SeriesProofs SeriesSim.
Import ListNotations.
Open Scope Z_scope.

Section Series.
Context (N : NumOps).
Local Notation T := (num N).

(** A program that makes sense for values does the same with pointers: no undefined behaviour and the same results, in particular
    every read sees the last value written and copies of owning series are independent. *)
Theorem C59_values : forall ops v rs n, vrun N (v_init N) ops v rs n -> exists s, mrun N false (m_init N) ops = Ok (s, rs).
Proof. intros ops v rs n R. destruct (run_sim N 0 _ _ ops v rs n (sim_init N) R) as (s & E & _). eauto. Qed.
(** When all series are destroyed and all arrays of datasets freed, the memory still allocated is one array for each move
    assignment to a series that owned its values, and nothing else. *)
Theorem C59_leaks : forall ops v rs n, vrun N (v_init N) ops v rs n -> all_gone N v ->
  exists s, mrun N false (m_init N) ops = Ok (s, rs) /\ live (m_mem s) = n.
Proof.
  intros ops v rs n R A. destruct (run_sim N 0 _ _ ops v rs n (sim_init N) R) as (s & E & S). exists s. split; auto.
  now apply (sim_gone N (0 + n) s v).
Qed.
Lemma vrun_count : forall v ops v' rs n, vrun N v ops v' rs n -> (forall i j, ~ In (MMove i j) ops) -> n = 0.
Proof.
  intros v ops v' rs n R. induction R as [|v o v1 r ops v2 rs k Hm E R IH|v o e ops v2 rs k Hm E R IH]; intros H; auto.
  - rewrite IH by (intros i j Q; apply (H i j); now right). destruct o; try reflexivity. exfalso. apply (H i j). now left.
  - apply IH. intros i j Q. apply (H i j). now right.
Qed.
(** So programs without move assignments release everything. *)
Theorem C59_no_leak : forall ops v rs n, vrun N (v_init N) ops v rs n -> all_gone N v -> (forall i j, ~ In (MMove i j) ops) ->
  exists s, mrun N false (m_init N) ops = Ok (s, rs) /\ live (m_mem s) = 0.
Proof. intros ops v rs n R A H. rewrite <- (vrun_count _ _ _ _ _ R H). now apply C59_leaks with v. Qed.

(** ** Groups: one array is lost for each group, made or loaded. *)
(** A group of the grouping (LocalLengthGroupSpace.cpp:92-97, Group.hpp:70-79, Group.cpp:26-29) or of a file (Group.cpp:105-112). *)
Inductive recipe : Type :=
| Made (L base index start : Z)
| Read (L : Z) (values : list T).
Definition recipe_ok (r : recipe) : Prop := match r with Made L _ _ _ => 0 <= L | Read L w => zlen w = L end.
Fixpoint sets (i : nat) (k : Z) (w : list T) : list (op N) := match w with [] => [] | x :: w => MSet i k x :: sets i (k + 1) w end.
(** Constructor, then [centroid = ...] from a temporary; group [g] is object [2 g], its temporary [2 g + 1]. *)
Definition create (g : nat) (r : recipe) : list (op N) :=
  match r with
  | Made L base index start => [MNew L; MView 0 base index start (start + L); MMove (2 * g) (2 * g + 1); MDestroy (2 * g + 1)]
  | Read L w => [MNew L; MNew L; MMove (2 * g) (2 * g + 1); MDestroy (2 * g + 1)] ++ sets (2 * g) 0 w
  end.
Fixpoint creates (g : nat) (rs : list recipe) : list (op N) := match rs with [] => [] | r :: rs => create g r ++ creates (S g) rs end.
Definition deletes (n : nat) : list (op N) := map (fun g => MDestroy (2 * g)) (seq 0 n).
(** A dataset, its groups, and their end. *)
Definition life (data : list T) (rs : list recipe) : list (op N) := [MBuf data] ++ creates 0 rs ++ deletes (length rs) ++ [MFree 0].

Lemma vrun_app : forall v ops v1 rs n, vrun N v ops v1 rs n -> forall ops' v2 rs' n', vrun N v1 ops' v2 rs' n' -> vrun N v (ops ++ ops') v2 (rs ++ rs') (n + n').
Proof.
  intros v ops v1 rs n R. induction R as [v|v o v1 r ops v2 rs k Hm E R IH|v o e ops v2 rs k Hm E R IH]; intros ops' v3 rs' n' R'.
  - exact R'.
  - cbn [app]. rewrite <- Z.add_assoc. econstructor; eauto.
  - cbn [app]. econstructor; eauto.
Qed.
Lemma VRet0 v o v1 r ops v2 rs k : forgets N v o = 0 -> ~ misuse N v o -> vstep N v o = Ok (v1, r) -> vrun N v1 ops v2 rs k -> vrun N v (o :: ops) v2 (Returned r :: rs) k.
Proof. intros F M E R. replace k with (forgets N v o + k) by lia. now apply VRet with v1. Qed.
Lemma vrun_sets : forall w k h i objs t l, nth_error objs i = Some (Some t) -> ts_src t = Owned l -> ts_start t = 0 -> zlen l = ts_len t -> 0 <= k -> k + zlen w <= ts_len t ->
  exists t' rs, vrun N (mkV h objs) (sets i k w) (mkV h (list_set objs i (Some t'))) rs 0.
Proof.
  induction w as [|x w IH]; intros k h i objs t l Et Es E0 El Hk Hw; cbn [sets].
  - exists t, []. rewrite list_set_same by auto. constructor.
  - rewrite zlen_cons in Hw. pose proof (zlen_nonneg w) as Hw0.
    set (t1 := mkTS (Owned (list_set l (Z.to_nat k) x)) (ts_index t) (ts_start t) (ts_end t) (ts_len t) (ts_cache t)).
    assert (Hi : (i < length objs)%nat) by (apply nth_error_Some; congruence).
    destruct (IH (k + 1) h i (list_set objs i (Some t1)) t1 (list_set l (Z.to_nat k) x)) as (t' & rs & R); auto; try lia.
    + now apply list_set_nth_error_eq.
    + unfold zlen. rewrite list_set_length. exact El.
    + cbn [ts_len t1]. lia.
    + exists t', (Returned RNone :: rs). rewrite list_set_twice in R. eapply VRet0; [reflexivity|intros []| |exact R].
      cbn [vstep]. unfold series. cbn [v_objs v_heap]. rewrite Et. cbn [bind]. unfold ts_set.
      destruct (Z.ltb_spec k 0); [lia|]. destruct (Z.leb_spec (ts_len t) k); [lia|]. cbn [orb]. unfold ts_write. rewrite Es, E0.
      rewrite zset_Ok by lia. cbn [bind]. replace (Z.to_nat (0 + k)) with (Z.to_nat k) by lia. unfold t1. rewrite E0. reflexivity.
Qed.
Lemma nth2 {A} (l : list A) n x y : length l = n -> nth_error (l ++ [x; y]) n = Some x /\ nth_error (l ++ [x; y]) (n + 1) = Some y.
Proof. intros <-. rewrite !nth_error_app2 by lia. rewrite Nat.sub_diag, Nat.add_sub_swap, Nat.sub_diag by lia. auto. Qed.
Lemma set2 {A} (l : list A) n x y z : length l = n -> list_set (l ++ [x; y]) n z = l ++ [z; y] /\ list_set (l ++ [x; y]) (n + 1) z = l ++ [x; z].
Proof. intros <-. induction l as [|a l (IH1 & IH2)]; cbn; auto. rewrite IH1, IH2. auto. Qed.

Lemma move_run h objs n d (l : list T) t : length objs = n -> ts_src d = Owned l ->
  vrun N (mkV h (objs ++ [Some d; Some t])) [MMove n (n + 1); MDestroy (n + 1)] (mkV h (objs ++ [Some (ts_assign d t); None])) [Returned RNone; Returned RNone] 1.
Proof.
  intros Hn Es. destruct (nth2 objs n (Some d) (Some t) Hn) as (E1 & E2). destruct (set2 objs n (Some d) (Some t) (Some (ts_assign d t)) Hn) as (S1 & _).
  destruct (nth2 objs n (Some (ts_assign d t)) (Some t) Hn) as (_ & E3). destruct (set2 objs n (Some (ts_assign d t)) (Some t) (Some (emptied N t)) Hn) as (_ & S2).
  destruct (nth2 objs n (Some (ts_assign d t)) (Some (emptied N t)) Hn) as (_ & E4). destruct (set2 objs n (Some (ts_assign d t)) (Some (emptied N t)) None Hn) as (_ & S3).
  replace 1 with (forgets N (mkV h (objs ++ [Some d; Some t])) (MMove n (n + 1)) + (forgets N (mkV h (objs ++ [Some (ts_assign d t); Some (emptied N t)])) (MDestroy (n + 1)) + 0)).
  2: { cbn [forgets]. unfold series. cbn [v_objs]. rewrite E1, Es. reflexivity. }
  eapply VRet; [intros []| |eapply VRet; [intros []| |constructor]].
  - cbn [vstep]. unfold series, with_series. cbn [v_objs v_heap]. rewrite E1, E2. cbn [bind v_objs v_heap]. rewrite S1, E3. cbn [bind]. rewrite S2. reflexivity.
  - cbn [vstep]. unfold series, with_series. cbn [v_objs v_heap]. rewrite E4. cbn [bind]. rewrite S3. reflexivity.
Qed.
Lemma new_run h objs L : 0 <= L -> exists t l, ts_src t = Owned l /\ ts_start t = 0 /\ ts_len t = L /\ zlen l = L /\
  vrun N (mkV h objs) [MNew L] (mkV h (objs ++ [Some t])) [Returned RNone] 0.
Proof.
  intros HL. eexists (mkTS (Owned (zrepeat (nzero N) L)) 0 0 L L None), (zrepeat (nzero N) L). do 3 (split; [reflexivity|]). split; [now apply zlen_zrepeat|].
  eapply VRet0; [reflexivity|intros []| |constructor]. cbn [vstep]. unfold ts_new. destruct (Z.ltb_spec L 0); [lia|]. reflexivity.
Qed.
Lemma create_run data objs g r : length objs = (2 * g)%nat -> recipe_ok r ->
  exists t rs, vrun N (mkV [Some data] objs) (create g r) (mkV [Some data] (objs ++ [Some t; None])) rs 1.
Proof.
  intros Hn Hr. destruct r as [L base index start|L w]; cbn [recipe_ok create] in *.
  - destruct (new_run [Some data] objs L Hr) as (t & l & Es & _ & _ & _ & R). eexists _, _.
    change [MNew L; MView 0 base index start (start + L); MMove (2 * g) (2 * g + 1); MDestroy (2 * g + 1)] with
      ([MNew (N := N) L] ++ [MView 0 base index start (start + L)] ++ [MMove (2 * g) (2 * g + 1); MDestroy (2 * g + 1)]).
    change 1 with (0 + (0 + 1)). eapply vrun_app; [exact R|]. eapply vrun_app; [|apply (move_run [Some data] objs (2 * g) t l (ts_view 0 base index start (start + L))); auto].
    apply (VRet0 (mkV [Some data] (objs ++ [Some t])) (MView 0 base index start (start + L)) (mkV [Some data] (objs ++ [Some t; Some (ts_view 0 base index start (start + L))])) RNone [] _ []); [reflexivity|intros []| |constructor].
    cbn [vstep v_heap nth_error]. unfold add_series. cbn [v_heap v_objs]. rewrite <- app_assoc. reflexivity.
  - pose proof (zlen_nonneg w) as H0. destruct (new_run [Some data] objs L ltac:(lia)) as (d & l & Es & _ & _ & _ & R).
    destruct (new_run [Some data] (objs ++ [Some d]) L ltac:(lia)) as (t & l' & Es' & E0 & El & Ez & R'). rewrite <- app_assoc in R'. cbn [app] in R'.
    pose proof (move_run [Some data] objs (2 * g) d l t Hn Es) as R2.
    destruct (nth2 objs (2 * g) (Some (ts_assign d t)) None Hn) as (E1 & _).
    destruct (vrun_sets w 0 [Some data] (2 * g) (objs ++ [Some (ts_assign d t); None]) (ts_assign d t) l' E1 Es' E0 ltac:(cbn; lia) ltac:(lia) ltac:(cbn; lia)) as (t' & rs & R3).
    destruct (set2 objs (2 * g) (Some (ts_assign d t)) None (Some t') Hn) as (S1 & _). rewrite S1 in R3.
    eexists t', _. exact (vrun_app _ _ _ _ _ R _ _ _ _ (vrun_app _ _ _ _ _ R' _ _ _ _ (vrun_app _ _ _ _ _ R2 _ _ _ _ R3))).
Qed.
(** Objects after creating: alive at even positions, dead at odd ones. *)
Fixpoint pairs (ts : list (ts N)) : list (option (TimeSeries.ts N)) := match ts with [] => [] | t :: ts => Some t :: None :: pairs ts end.
Lemma pairs_app l l' : pairs (l ++ l') = pairs l ++ pairs l'.
Proof. induction l as [|t l IH]; cbn; congruence. Qed.
Lemma pairs_length l : length (pairs l) = (2 * length l)%nat.
Proof. induction l as [|t l IH]; cbn in *; auto. lia. Qed.
Lemma creates_run data rs : Forall recipe_ok rs -> forall ts0, exists ts1 res, length ts1 = length rs /\
  vrun N (mkV [Some data] (pairs ts0)) (creates (length ts0) rs) (mkV [Some data] (pairs (ts0 ++ ts1))) res (zlen rs).
Proof.
  induction 1 as [|r rs Hr _ IH]; intros ts0; cbn [creates].
  - exists [], []. split; auto. rewrite app_nil_r. constructor.
  - destruct (create_run data (pairs ts0) (length ts0) r (pairs_length ts0) Hr) as (t & res & R). destruct (IH (ts0 ++ [t])) as (ts1 & res' & El & R').
    exists (t :: ts1), (res ++ res'). split; [cbn; lia|]. rewrite zlen_cons. eapply vrun_app; [exact R|].
    rewrite pairs_app in R'. cbn [pairs] in R'. rewrite app_length in R'. cbn [length] in R'. rewrite Nat.add_1_r, <- app_assoc in R'. exact R'.
Qed.
Lemma deletes_run h n : forall k (objs : list (option (ts N))), (forall g, (k <= g < k + n)%nat -> exists t, nth_error objs (2 * g) = Some (Some t)) ->
  exists objs' res, vrun N (mkV h objs) (map (fun g => MDestroy (2 * g)) (seq k n)) (mkV h objs') res 0 /\ length objs' = length objs /\
    (forall g, (k <= g < k + n)%nat -> nth_error objs' (2 * g) = Some None) /\ (forall i, (forall g, (k <= g < k + n)%nat -> i <> 2 * g)%nat -> nth_error objs' i = nth_error objs i).
Proof.
  induction n as [|n IH]; intros k objs H; cbn [seq map].
  - exists objs, []. split; [constructor|]. split; auto. split; [intros; lia|auto].
  - destruct (H k ltac:(lia)) as (t & Et). assert (Hk : (2 * k < length objs)%nat) by (apply nth_error_Some; congruence).
    destruct (IH (S k) (list_set objs (2 * k) None)) as (objs' & res & R & El & Hd & Hk').
    { intros g Hg. destruct (H g ltac:(lia)) as (u & Eu). exists u. rewrite <- Eu. apply list_set_nth_error_neq. lia. }
    exists objs', (Returned RNone :: res). split; [|split; [|split]].
    + eapply VRet0; [reflexivity|intros []| |exact R]. cbn [vstep]. unfold series. cbn [v_objs]. change (k + (k + 0))%nat with (2 * k)%nat. rewrite Et. reflexivity.
    + rewrite El. apply list_set_length.
    + intros g Hg. destruct (Nat.eq_dec g k) as [->|Hn]; [|apply Hd; lia]. rewrite (Hk' (2 * k)%nat) by lia. apply list_set_nth_error_eq. exact Hk.
    + intros i Hi. rewrite Hk' by (intros g Hg; apply Hi; lia). apply list_set_nth_error_neq. intros Q. apply (Hi k); lia.
Qed.
Lemma pairs_nth l : forall g, (exists t, nth_error (pairs l) (2 * g) = Some (Some t)) \/ (length l <= g)%nat.
Proof.
  induction l as [|t l IH]; intros g; cbn [pairs length]; [right; lia|]. destruct g as [|g]; [left; exists t; reflexivity|].
  replace (2 * S g)%nat with (S (S (2 * g))) by lia. cbn [nth_error]. destruct (IH g) as [H|H]; [auto|right; lia].
Qed.
Lemma pairs_odd l : forall i, nth_error (pairs l) i <> None -> (forall g, (g < length l)%nat -> i <> 2 * g)%nat -> nth_error (pairs l) i = Some None.
Proof.
  induction l as [|t l IH]; intros i Hi Ho; cbn [pairs] in *; [destruct i; cbn in Hi; congruence|]. destruct i as [|[|i]]; cbn [nth_error] in *; auto.
  - exfalso. apply (Ho 0%nat); cbn; lia.
  - apply IH; auto. intros g Hg ->. apply (Ho (S g)); cbn [length]; lia.
Qed.
Lemma life_run data rs : Forall recipe_ok rs -> exists v res, vrun N (v_init N) (life data rs) v res (zlen rs) /\ all_gone N v.
Proof.
  intros H. destruct (creates_run data rs H []) as (ts1 & res1 & El & R1). cbn [app length pairs] in R1.
  destruct (deletes_run [Some data] (length rs) 0 (pairs ts1)) as (objs' & res2 & R2 & El2 & Hd & Hk).
  { intros g Hg. destruct (pairs_nth ts1 g) as [Q|Q]; auto. lia. }
  eexists (mkV [None] objs'), _. split.
  - unfold life. replace (zlen rs) with (0 + (zlen rs + (0 + 0))) by lia. eapply vrun_app.
    + eapply VRet0; [reflexivity|intros []|reflexivity|constructor].
    + eapply vrun_app; [exact R1|]. eapply vrun_app; [exact R2|].
      eapply VRet0; [reflexivity|intros []|reflexivity|constructor].
  - split; cbn [v_heap v_objs].
    + intros b. destruct b as [|[|b]]; cbn; auto; congruence.
    + intros i Hi. destruct (in_dec Nat.eq_dec i (map (fun g => 2 * g)%nat (seq 0 (length rs)))) as [Q|Q].
      * apply in_map_iff in Q as (g & <- & Q). apply in_seq in Q. apply Hd. lia.
      * assert (Q' : forall g, (0 <= g < 0 + length rs)%nat -> i <> (2 * g)%nat).
        { intros g Hg ->. apply Q. apply in_map_iff. exists g. split; auto. apply in_seq. lia. }
        rewrite (Hk i Q') in *. apply pairs_odd; auto. intros g Hg. apply Q'. lia.
Qed.
(** Whatever groups are made or loaded: after everything is destroyed, exactly one array per group is still allocated. *)
Theorem C59_groups_leak : forall data rs, Forall recipe_ok rs ->
  exists s res, mrun N false (m_init N) (life data rs) = Ok (s, res) /\ live (m_mem s) = zlen rs.
Proof.
  intros data rs H. destruct (life_run data rs H) as (v & res & R & A). destruct (C59_leaks _ _ _ _ R A) as (s & E & L). exists s, res. auto.
Qed.

(** ** What goes wrong outside. *)
(** Assigning an owning series to itself loses its values: reading them is a read of uninitialised memory. *)
Theorem C59_self_assign_witness : forall x, mrun N false (m_init N) [MNew 1; MSet 0 0 x; MAssign 0 0; MGet 0 0] = UB Uninit.
Proof. reflexivity. Qed.
(** A series whose data was moved away cannot be copied, read or added. *)
Theorem C59_moved_witness : mrun N false (m_init N) [MNew 1; MNew 1; MMove 0 1; MCopy 1] = UB NullDeref /\
  mrun N false (m_init N) [MNew 1; MNew 1; MMove 0 1; MGet 1 0] = UB NullDeref /\ mrun N false (m_init N) [MNew 1; MNew 1; MMove 0 1; MAdd 0 1] = UB NullDeref.
Proof. repeat split. Qed.
(** The destructor uses [delete] for an array allocated with [new[]]: read strictly, destroying a series that owns its values is
    always undefined behaviour. *)
Theorem C59_delete_strict : forall s i o b, nth_error (m_objs s) i = Some (Some o) -> o_owner o = true -> o_data o = Some b ->
  mstep N true s (MDestroy i) = UB BadDelete.
Proof. intros s i o (p & k) E Ow Ed. cbn [mstep]. unfold op_destroy, obj_at. rewrite E. cbn [bind]. now rewrite Ow, Ed. Qed.
Theorem C59_delete_witness : mrun N true (m_init N) [MNew 3; MDestroy 0] = UB BadDelete.
Proof. reflexivity. Qed.

(** A program with copies, assignments, windows, an exception and a move: 1 array is forgotten. *)
Example C59_case : forall x y, exists v rs, vrun N (v_init N)
  [MBuf [x; y]; MView 0 0 0 0 2; MNew 2; MAssign 1 0; MCopy 1; MSet 2 1 x; MGet 0 1; MGet 0 2; MNew 1; MNew 1; MMove 3 4; MDestroy 0; MDestroy 1; MDestroy 2; MDestroy 3; MDestroy 4; MFree 0] v rs 1 /\
  all_gone N v /\ nth_error rs 6 = Some (Returned (RVal x)) /\ nth_error rs 7 = Some (Threw (OnexExn "Data point index is out of range")).
Proof.
  intros x y. eexists _, _. split; [|split; [|split]].
  - change 1 with (0 + (0 + (0 + (0 + (0 + (0 + (0 + (0 + (0 + (1 + (0 + (0 + (0 + (0 + (0 + (0 + 0)))))))))))))))).
    repeat first [ apply VDone
      | (eapply VExn; [intros Q; now cbn in Q|reflexivity|])
      | (eapply VRet; [|reflexivity|]; [intros Q; cbn in Q; try exact Q|]) ].
    + destruct Q as [(t & E & Q)|(Q & _)]; [|discriminate]. injection E as <-. discriminate.
    + destruct Q as (t & E & Q). injection E as <-. discriminate.
  - split; cbn [v_heap v_objs].
    + intros [|[|b]]; cbn; auto; congruence.
    + intros [|[|[|[|[|[|b]]]]]]; cbn; auto; congruence.
  - reflexivity.
  - reflexivity.
Qed.
End Series.
