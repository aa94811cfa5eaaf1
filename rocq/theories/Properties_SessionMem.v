(** * C63: the memory of sessions: nothing is released twice or used after its release, and exactly what is lost.

    SessionMem.v has the allocations and releases of the constructors, destructors and resets of datasets, group spaces and groups.
    [driven σ ops σ' acts n] (SessionMemSpec.v): the history [ops] of Api.v with the memory actions [acts] that belong to it, where the calls
    of groupDataset and loadGroup returned [n] groups in total.  [reach]: the blocks that are still in some object of a loaded dataset.
    Stated for any arithmetic, so in particular for doubles. *)
From Coq Require Import ZArith Bool Lia Permutation SpecFloat String List Ascii.
From Verif Require Import Outcome Num Distance TimeSeries Text Dataset.
From Verif Require SessionMem.
From Verif Require Import SessionMemProofs Groups Api F64Base GroupSpec GroupProofs GlobalGroup SessionProofs SessionMemSpec SessionMemLink SessionMemReach.
From Verif Require Import Properties_Groups Properties_Indep Properties_Life.
Import SessionMem (mem, cell, CArr, CSet, CGlobal, CLocal, CGroup, mst, m_mem, m_sets, mop, m_init, mrun, live).
Import ListNotations.
Open Scope Z_scope.

Section Mem.
Context (N : NumOps) (IO : NumIO N) (writable : string -> bool).
Local Notation driven := (driven N IO writable).
Local Notation run := (run N IO writable).

Lemma start_tree : tree m_init [] [].
Proof. split; [reflexivity|]. split; [constructor|]. intros p c. cbn. split; [destruct p; discriminate|tauto]. Qed.
Lemma driven_tree files ops σ acts n : driven (st_init N files) ops σ acts n ->
  exists s t lk, mrun m_init acts = Ok s /\ tree s t lk /\ shapes t = sshapes N σ /\ Z.of_nat (List.length lk) = n.
Proof.
  intros D. destruct (run_tree N IO writable _ _ _ _ _ D m_init [] [] (init_rows N files) start_tree eq_refl) as (s & t & lk & E & T & Sh & L).
  rewrite app_nil_r in T. eauto 8.
Qed.

(** ** Every history of calls has memory actions. *)
Theorem C63_every_history : forall files ops σ, run (st_init N files) ops = Some σ -> exists acts n, driven (st_init N files) ops σ acts n.
Proof. intros files ops σ. apply driven_ex. Qed.

(** ** The actions are defined: no block is released twice, and no block is used after its release.  Every pointer that is left in a dataset,
    a group space, a group or a series leads to a block that is allocated, and the objects are those of the session. *)
Theorem C63_no_misuse : forall files ops σ acts n, driven (st_init N files) ops σ acts n ->
  exists s, mrun m_init acts = Ok s /\ mirrors N s σ /\ forall p, reach s p -> exists c, live_at (m_mem s) p c.
Proof.
  intros files ops σ acts n D. destruct (driven_tree _ _ _ _ _ D) as (s & t & lk & E & T & Sh & _). exists s. split; auto. split; [eapply tree_mirrors; eauto|].
  intros p R. apply (tree_live s t lk T). auto.
Qed.

(** ** What is lost: one array for each group that was ever made or loaded (the array that the constructor of the group gives its centroid). *)
Theorem C63_lost : forall files ops σ acts n s, driven (st_init N files) ops σ acts n -> mrun m_init acts = Ok s ->
  exists lost, NoDup lost /\ Z.of_nat (List.length lost) = n /\
  (forall p, In p lost <-> (exists c, live_at (m_mem s) p c) /\ ~ reach s p) /\
  (forall p, In p lost -> live_at (m_mem s) p CArr).
Proof.
  intros files ops σ acts n s D E0. destruct (driven_tree _ _ _ _ _ D) as (s' & t & lk & E & T & Sh & L). rewrite E in E0. injection E0 as ->.
  exists lk. split; [eapply tree_nodup; eauto|]. split; auto. split; [|intros p I; apply (tree_lost s t lk T p I)]. intros p. rewrite (tree_live s t lk T). split; [|tauto].
  intros I. split; auto. apply (tree_lost s t lk T p I).
Qed.

(** ** Without grouping nothing is lost. *)
Definition groups_call (o : op N) : Prop := match o with OpGroup _ _ _ _ => True | OpLoadGroup _ _ _ => True | _ => False end.
Lemma no_groups ops : forall σ σ' acts n, driven σ ops σ' acts n -> Forall (fun o => ~ groups_call o) ops -> n = 0.
Proof.
  induction ops as [|o ops IH]; intros σ σ' acts n D F; inversion D as [|? ? σ1 ? ? a ? n1 A Da D1]; subst; auto. inversion F; subst. rewrite (IH _ _ _ _ D1); auto.
  destruct o; cbn in *; tauto.
Qed.
Theorem C63_nothing_lost : forall files ops σ acts n s, driven (st_init N files) ops σ acts n -> mrun m_init acts = Ok s ->
  Forall (fun o => ~ groups_call o) ops -> forall p, (exists c, live_at (m_mem s) p c) <-> reach s p.
Proof.
  intros files ops σ acts n s D E F p. destruct (C63_lost _ _ _ _ _ _ D E) as (lost & _ & L & H & _). rewrite (no_groups _ _ _ _ _ D F) in L.
  destruct lost; [|cbn in L; lia]. specialize (H p). destruct (C63_no_misuse _ _ _ _ _ D) as (s' & E' & _ & R). rewrite E' in E. injection E as ->. split; [|apply R].
  intros Lv. destruct (driven_tree _ _ _ _ _ D) as (s' & t & lk & E & T & Sh & L'). rewrite E' in E. injection E as <-. apply (tree_live s t lk T) in Lv as [|I]; auto.
  rewrite (no_groups _ _ _ _ _ D F) in L'. destruct lk; [destruct I|cbn in L'; lia].
Qed.

(** ** At the end, when all datasets have been unloaded (also by the destructor of the API object), exactly the lost arrays are left. *)
Fixpoint blocks (k : nat) (m : mem) : list (nat * cell) :=
  match m with [] => [] | Some c :: m => (k, c) :: blocks (S k) m | None :: m => blocks (S k) m end.
Lemma blocks_live m : forall k, map snd (blocks k m) = live m.
Proof. induction m as [|[c|] m IH]; intros k; cbn; auto. now rewrite IH. Qed.
Lemma blocks_in m : forall k p c, In (p, c) (blocks k m) <-> (k <= p)%nat /\ nth_error m (p - k) = Some (Some c).
Proof.
  induction m as [|x m IH]; intros k p c.
  - cbn. destruct (p - k)%nat; split; [tauto|intros (_ & H); discriminate|tauto|intros (_ & H); discriminate].
  - assert (E : In (p, c) (blocks (S k) m) <-> (k < p)%nat /\ nth_error (x :: m) (p - k) = Some (Some c)).
    { rewrite IH. split; intros (H & H1); (split; [lia|]); replace (p - k)%nat with (S (p - S k)) in * by lia; exact H1. }
    destruct x as [c'|]; cbn [blocks In]; rewrite E; split.
    + intros [X|(H & H1)]; [injection X as -> ->; split; [lia|now rewrite Nat.sub_diag]|split; [lia|exact H1]].
    + intros (H & H1). destruct (Nat.eq_dec k p) as [->|]; [left; rewrite Nat.sub_diag in H1; cbn in H1; congruence|right; split; [lia|exact H1]].
    + intros (H & H1). split; [lia|exact H1].
    + intros (H & H1). split; [|exact H1]. destruct (Nat.eq_dec k p) as [->|]; [rewrite Nat.sub_diag in H1; discriminate|lia].
Qed.
Lemma blocks_nodup m : forall k, NoDup (blocks k m).
Proof.
  induction m as [|[c|] m IH]; intros k; cbn; try constructor; auto. intros I. apply blocks_in in I. lia.
Qed.
Lemma arrays_only m lk : holds m (map arr lk) -> live m = repeat CArr (List.length lk).
Proof.
  intros (Nd & H). assert (P : Permutation (blocks 0 m) (map arr lk)).
  { apply NoDup_Permutation; [apply blocks_nodup|exact (NoDup_map_inv _ _ Nd)|]. intros (p & c). rewrite blocks_in, Nat.sub_0_r. rewrite (H p c). intuition lia. }
  rewrite <- (blocks_live m 0). apply (Permutation_map snd) in P. rewrite map_map in P. cbn in P.
  assert (R : map (fun _ : nat => CArr) lk = repeat CArr (List.length lk)) by (clear; induction lk; cbn; congruence). rewrite R in P.
  now apply Permutation_repeat in P.
Qed.
Theorem C63_end : forall files ops σ acts n, driven (st_init N files) (ops ++ [OpUnloadAll N]) σ acts n ->
  exists s, mrun m_init acts = Ok s /\ (forall p, ~ reach s p) /\ live (m_mem s) = repeat CArr (Z.to_nat n).
Proof.
  intros files ops σ acts n D. destruct (driven_tree _ _ _ _ _ D) as (s & t & lk & E & T & Sh & L). exists s. split; auto.
  apply driven_run in D. rewrite run_app in D. destruct (run (st_init N files) ops) as [σ1|]; [|discriminate]. cbn in D. injection D as <-.
  cbn in Sh. destruct t; [|discriminate Sh]. split; [intros p R; apply (tree_reach s [] lk T) in R; destruct R|]. destruct T as (_ & T). cbn [flat_map app] in T.
  rewrite (arrays_only _ _ T). f_equal. lia.
Qed.
(** ** What is lost once stays lost: later calls never release it. *)
Lemma driven_app ops1 : forall σ ops2 σ2 acts n, driven σ (ops1 ++ ops2) σ2 acts n ->
  exists σ1 acts1 acts2 n1 n2, driven σ ops1 σ1 acts1 n1 /\ driven σ1 ops2 σ2 acts2 n2 /\ acts = acts1 ++ acts2 /\ n = n1 + n2.
Proof.
  induction ops1 as [|o ops1 IH]; intros σ ops2 σ2 acts n D; cbn [app] in D.
  - exists σ, [], acts, 0, n. repeat split; auto. constructor.
  - inversion D as [|? ? σ1 ? ? a ? n1 A Da D1]; subst. destruct (IH _ _ _ _ _ D1) as (σ3 & a1 & a2 & k1 & k2 & X1 & X2 & -> & ->).
    exists σ3, (a :: a1), a2, (counted N o (step N IO writable σ o) + k1), k2. split; [econstructor; eauto|]. split; auto. split; [reflexivity|lia].
Qed.
Lemma driven_join ops1 : forall σ σ1 acts1 n1 ops2 σ2 acts2 n2, driven σ ops1 σ1 acts1 n1 -> driven σ1 ops2 σ2 acts2 n2 -> driven σ (ops1 ++ ops2) σ2 (acts1 ++ acts2) (n1 + n2).
Proof.
  induction ops1 as [|o ops1 IH]; intros σ σ1 acts1 n1 ops2 σ2 acts2 n2 D1 D2; inversion D1; subst; cbn [app]; [exact D2|]. rewrite <- Z.add_assoc. econstructor; eauto.
Qed.
Lemma mrun_app acts1 : forall s acts2, mrun s (acts1 ++ acts2) = (s1 <- mrun s acts1 ;; mrun s1 acts2).
Proof. unfold mrun. induction acts1 as [|a acts1 IH]; intros s acts2; cbn [app for_each bind]; auto. destruct (SessionMem.mstep s a); cbn [bind]; auto. Qed.
Theorem C63_lost_for_ever : forall files ops1 σ1 acts1 n1 ops2 σ2 acts2 n2 s1 s2,
  driven (st_init N files) ops1 σ1 acts1 n1 -> mrun m_init acts1 = Ok s1 ->
  driven σ1 ops2 σ2 acts2 n2 -> mrun s1 acts2 = Ok s2 ->
  forall p c, live_at (m_mem s1) p c -> ~ reach s1 p -> live_at (m_mem s2) p c /\ ~ reach s2 p.
Proof.
  intros files ops1 σ1 acts1 n1 ops2 σ2 acts2 n2 s1 s2 D1 E1 D2 E2 p c Lv Nr.
  destruct (driven_tree _ _ _ _ _ D1) as (s & t & lk & E & T & Sh & _). rewrite E in E1. injection E1 as ->.
  assert (R1 : rows_ok N σ1).
  { apply driven_run in D1. revert D1. generalize (init_rows N files). generalize (st_init N files). induction ops1 as [|o ops1 IH]; cbn [Api.run]; intros σ0 Hr X; [injection X as <-; auto|].
    destruct (after N _) eqn:A; [|discriminate]. exact (IH _ (step_rows N IO writable _ _ _ Hr A) X). }
  destruct (run_tree N IO writable _ _ _ _ _ D2 s1 t lk R1 T Sh) as (s' & t2 & lk2 & E' & T2 & _). rewrite E' in E2. injection E2 as ->.
  assert (I : In p lk) by (destruct (proj1 (tree_live s1 t lk T p) (ex_intro _ c Lv)); tauto).
  assert (c = CArr) by (destruct (tree_lost s1 t lk T p I) as (_ & X); unfold live_at in *; congruence). subst c.
  destruct (tree_lost s2 t2 (lk2 ++ lk) T2 p) as (X & Y); [apply in_app_iff; auto|auto].
Qed.
End Mem.

(** ** A session: two datasets are loaded; the first is grouped twice, searched, its groups are saved and loaded again; everything is unloaded. *)
Definition mem_ops : list (op F64) :=
  life_before ++ [ life_match; OpPAA F64 1 2; OpUnload F64 1; OpGroup F64 0 (f64_ofZ 2) (fun _ => false); OpSaveGroup F64 0 "g" false; OpLoadGroup F64 0 "g" ].
Definition mem_w : string -> bool := fun p => negb (String.eqb p "a").
Fixpoint returned (σ : st F64) (ops : list (op F64)) : option Z :=
  match ops with
  | [] => Some 0
  | o :: ops => let r := step F64 F64_IO mem_w σ o in
      match after F64 r with Some σ => option_map (Z.add (counted F64 o r)) (returned σ ops) | None => None end
  end.
Lemma returned_driven ops : forall σ n, returned σ ops = Some n -> exists σ' acts, driven F64 F64_IO mem_w σ ops σ' acts n.
Proof.
  induction ops as [|o ops IH]; intros σ n E; cbn [returned] in E; [injection E as <-; exists σ, []; constructor|]. cbv zeta in E.
  destruct (after F64 (step F64 F64_IO mem_w σ o)) as [σ1|] eqn:A; [|discriminate]. destruct (returned σ1 ops) as [k|] eqn:R; [|discriminate]. cbn [option_map] in E. injection E as <-.
  destruct (IH _ _ R) as (σ' & acts & D). destruct (drives_ex F64 F64_IO mem_w _ _ _ A) as (a & Da). exists σ', (a :: acts). econstructor; eauto.
Qed.
(** 9 groups are made, then 5, then 5 are loaded; 19 arrays are still allocated when everything has been unloaded. *)
Example C63_case : exists σ acts s, driven F64 F64_IO mem_w (st_init F64 life_files) mem_ops σ acts 19 /\ mrun m_init acts = Ok s.
Proof.
  assert (E : returned (st_init F64 life_files) mem_ops = Some 19) by (vm_compute; reflexivity). destruct (returned_driven _ _ _ E) as (σ & acts & D).
  destruct (C63_no_misuse F64 F64_IO mem_w _ _ _ _ _ D) as (s & Es & _). eauto.
Qed.
Theorem C63_all_released_refuted : exists σ acts s,
  driven F64 F64_IO mem_w (st_init F64 life_files) (mem_ops ++ [OpUnloadAll F64]) σ acts 19 /\
  mrun m_init acts = Ok s /\ (forall p, ~ reach s p) /\ live (m_mem s) = repeat CArr 19.
Proof.
  assert (E : returned (st_init F64 life_files) (mem_ops ++ [OpUnloadAll F64]) = Some 19) by (vm_compute; reflexivity). destruct (returned_driven _ _ _ E) as (σ & acts & D).
  destruct (C63_end F64 F64_IO mem_w _ _ _ _ _ D) as (s & Es & R & L). exists σ, acts, s. auto.
Qed.
(** Without the calls that make or load groups: the hypothesis of C63_nothing_lost. *)
Example C63_no_groups_case : exists σ acts s, let ops := [ OpLoad F64 "a" 0 0 [" "%char]; OpLoad F64 "a" 0 0 [" "%char]; OpNormalize F64 0; OpPAA F64 1 2 ] in
  driven F64 F64_IO mem_w (st_init F64 life_files) ops σ acts 0 /\ mrun m_init acts = Ok s /\ Forall (fun o => ~ groups_call F64 o) ops.
Proof.
  assert (E : returned (st_init F64 life_files) [ OpLoad F64 "a" 0 0 [" "%char]; OpLoad F64 "a" 0 0 [" "%char]; OpNormalize F64 0; OpPAA F64 1 2 ] = Some 0) by (vm_compute; reflexivity).
  destruct (returned_driven _ _ _ E) as (σ & acts & D). destruct (C63_no_misuse F64 F64_IO mem_w _ _ _ _ _ D) as (s & Es & _). exists σ, acts, s. cbv zeta.
  split; auto. split; auto. repeat constructor; cbn; tauto.
Qed.
