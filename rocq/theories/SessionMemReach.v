(** * From trees of objects to what the program can still reach. *)
From Coq Require Import Arith ZArith Bool Lia String List.
From Verif Require Import Outcome Num Distance TimeSeries Text Dataset.
From Verif Require SessionMem.
From Verif Require Import SessionMemProofs Groups Api GroupSpec GroupProofs GlobalGroup SessionProofs SessionMemSpec SessionMemLink.
Import SessionMem (mem, cell, CArr, CSet, CGlobal, CLocal, CGroup, series, s_data, s_owner, s_lower, s_upper, mst, m_mem, m_sets,
  mop, MLoad, MUnload, MUnloadAll, MGroup, MLoadGroup, MMatch, MPAA, MIdle).
Import ListNotations.
Open Scope Z_scope.

(** ** A block of a tree is responsible for blocks of the tree only. *)
Definition closed (F : list block) : Prop := forall p c q, In (p, c) F -> In q (owned c) -> In q (map fst F).
Lemma oarr_in o q : In q (map fst (oarr o)) <-> In q (pointer o).
Proof. destruct o; cbn; tauto. Qed.
Lemma arrs_in s q : In q (map fst (arrs s)) <-> In q (owned (CGroup s)).
Proof. unfold arrs. cbn [owned]. rewrite !map_app, !in_app_iff, !oarr_in. destruct (s_owner s); [rewrite oarr_in|cbn]; tauto. Qed.
Lemma oarr_cells o p c : In (p, c) (oarr o) -> c = CArr.
Proof. destruct o; cbn; [intros [E|[]]; now injection E|tauto]. Qed.
Lemma arrs_cells s p c : In (p, c) (arrs s) -> c = CArr.
Proof. unfold arrs. rewrite !in_app_iff. destruct (s_owner s); intros [H|[H|H]]; try (eapply oarr_cells; eassumption). destruct H. Qed.
Lemma closed_g g : closed (gcells g).
Proof.
  intros p c q [E|I] Ho; cbn [gcells map] in *; [injection E as <- <-; right; now apply arrs_in|]. apply arrs_cells in I. subst c. destruct Ho.
Qed.
Lemma closed_all {A} (f : A -> list block) l : (forall a, In a l -> closed (f a)) -> closed (flat_map f l).
Proof.
  intros H p c q I Ho. apply in_flat_map in I as (a & Ia & I). pose proof (H a Ia p c q I Ho) as X. apply in_map_iff in X as (b & <- & X).
  apply in_map. apply in_flat_map. eauto.
Qed.
Lemma closed_o {A} (f : A -> list block) o : (forall a, closed (f a)) -> closed (ocells f o).
Proof. intros H. destruct o; cbn; auto. intros p c q []. Qed.
Lemma closed_cons p c F : (forall q, In q (owned c) -> In q (map fst F)) -> closed F -> closed ((p, c) :: F).
Proof. intros H HF r d q [E|I] Ho; cbn [map]; [injection E as <- <-|]; right; eauto. Qed.
Lemma root_in {A} (f : A -> list block) (pt : A -> nat) l q : (forall a, In (pt a) (map fst (f a))) -> In q (map pt l) -> In q (map fst (flat_map f l)).
Proof.
  intros H I. apply in_map_iff in I as (a & <- & I). specialize (H a). apply in_map_iff in H as (b & E & H). rewrite <- E. apply in_map, in_flat_map. eauto.
Qed.
Lemma closed_l l : closed (lcells l).
Proof.
  apply closed_cons; [|apply closed_all; intros; apply closed_g]. cbn [owned]. intros q. apply root_in. intros g. now left.
Qed.
Lemma oroots {A} (f : A -> list block) (pt : A -> nat) l q : (forall a, In (pt a) (map fst (f a))) ->
  In q (flat_map pointer (map (option_map pt) l)) -> In q (map fst (flat_map (ocells f) l)).
Proof.
  intros H I. apply in_flat_map in I as (o & I & Io). apply in_map_iff in I as (x & <- & I). destruct x as [a|]; cbn in Io; [|destruct Io]. destruct Io as [<-|[]].
  specialize (H a). apply in_map_iff in H as (b & E & H). rewrite <- E. apply in_map, in_flat_map. exists (Some a). auto.
Qed.
Lemma closed_gl g : closed (glcells g).
Proof.
  apply closed_cons; [|apply closed_all; intros; apply closed_o, closed_l]. cbn [owned]. intros q. apply oroots. intros l. now left.
Qed.
Lemma closed_arr o : closed (oarr o).
Proof. intros p c q I Ho. apply oarr_cells in I. subst c. destruct Ho. Qed.
Lemma closed_app F G : closed F -> closed G -> closed (F ++ G).
Proof. intros HF HG p c q I Ho. rewrite map_app, in_app_iff. apply in_app_iff in I as [I|I]; eauto. Qed.
Lemma closed_s s : closed (scells s).
Proof.
  apply closed_cons; [|apply closed_app; [apply closed_arr|apply closed_o, closed_gl]]. cbn [owned]. intros q. rewrite map_app, !in_app_iff, oarr_in.
  intros [H|H]; auto. right. destruct (as_groups s) as [g|]; [|destruct H]. destruct H as [<-|[]]. now left.
Qed.

Lemma NoDup_app_remove_l (l l' : list nat) : NoDup (l ++ l') -> NoDup l'.
Proof. induction l; cbn; auto. intros H. inversion H; auto. Qed.
Lemma NoDup_app_remove_r (l l' : list nat) : NoDup (l ++ l') -> NoDup l.
Proof.
  induction l; cbn; intros H; constructor; inversion H as [|? ? Ni Nd]; subst; auto. intros I. apply Ni, in_app_iff. auto.
Qed.
Lemma nodup_disj (l l' : list nat) p : NoDup (l ++ l') -> In p l -> ~ In p l'.
Proof.
  intros Nd I J. apply in_split in I as (a & b & ->). rewrite <- app_assoc in Nd. cbn in Nd. apply NoDup_remove_2 in Nd. apply Nd. rewrite !in_app_iff. auto.
Qed.

(** ** Every block of a tree can be reached from its root. *)
Section Reach.
Context (s : mst).
Definition there (F : list block) : Prop := forall p c, In (p, c) F -> live_at (m_mem s) p c.
Lemma there_app F G : there (F ++ G) -> there F /\ there G.
Proof. intros H. split; intros p c I; apply H, in_app_iff; auto. Qed.
Lemma there_in {A} (f : A -> list block) l a : there (flat_map f l) -> In a l -> there (f a).
Proof. intros H I p c J. apply H, in_flat_map. eauto. Qed.
Lemma there_tl b F : there (b :: F) -> there F.
Proof. intros H p c I. apply H. now right. Qed.
Lemma reach_child p c F q : there ((p, c) :: F) -> reach s p -> In q (owned c) -> reach s q.
Proof. intros H R I. eapply ReachOwned; eauto. apply H. now left. Qed.
Lemma reach_g g : there (gcells g) -> reach s (ag_ptr g) -> forall q, In q (map fst (gcells g)) -> reach s q.
Proof. intros H R q [<-|I]; auto. eapply reach_child; eauto. now apply arrs_in. Qed.
Lemma reach_l l : there (lcells l) -> reach s (al_ptr l) -> forall q, In q (map fst (lcells l)) -> reach s q.
Proof.
  intros H R q [<-|I]; auto. apply in_map_iff in I as ((q' & c) & <- & I). apply in_flat_map in I as (g & Ig & I).
  apply (reach_g g); [exact (there_in _ _ _ (there_tl _ _ H) Ig)| |exact (in_map fst _ _ I)].
  eapply reach_child; eauto. cbn [owned]. now apply in_map.
Qed.
Lemma pointer_in {A} (pt : A -> nat) l a : In (Some a) l -> In (pt a) (flat_map pointer (map (option_map pt) l)).
Proof. intros I. apply in_flat_map. exists (Some (pt a)). split; [|now left]. apply in_map_iff. now exists (Some a). Qed.
Lemma reach_gl g : there (glcells g) -> reach s (agl_ptr g) -> forall q, In q (map fst (glcells g)) -> reach s q.
Proof.
  intros H R q [<-|I]; auto. apply in_map_iff in I as ((q' & c) & <- & I). apply in_flat_map in I as ([l|] & Il & I); [|destruct I].
  apply (reach_l l); [exact (there_in _ _ _ (there_tl _ _ H) Il)| |exact (in_map fst _ _ I)].
  eapply reach_child; eauto. cbn [owned]. now apply pointer_in.
Qed.
Lemma reach_s y : there (scells y) -> reach s (as_ptr y) -> forall q, In q (map fst (scells y)) -> reach s q.
Proof.
  intros H R q [<-|I]; auto. rewrite map_app, in_app_iff in I. destruct I as [I|I].
  - eapply reach_child; eauto. cbn [owned]. rewrite in_app_iff, <- oarr_in. auto.
  - destruct (as_groups y) as [g|] eqn:Eg; [|destruct I]. apply (reach_gl g); auto.
    + unfold scells in H. rewrite Eg in H. exact (proj2 (there_app _ _ (there_tl _ _ H))).
    + eapply reach_child; eauto. cbn [owned]. rewrite in_app_iff, Eg. right. now left.
Qed.
Context (t : list (option aset)) (lk : list nat) (T : tree s t lk).
Local Notation cells := (flat_map (ocells scells) t).
Lemma tree_there : there (cells ++ map arr lk).
Proof. intros p c I. destruct T as (_ & _ & H). now apply H. Qed.
Lemma tree_reach p : reach s p <-> In p (map fst cells).
Proof.
  destruct T as (E & Nd & H). split.
  - induction 1 as [p I|p c q R IH L Ho].
    + rewrite E in I. apply oroots with (pt := as_ptr) (f := scells); [intros y; now left|]. apply in_flat_map. exists (Some p). split; auto. now left.
    + apply H in L. apply in_app_iff in L as [L|L].
      * refine (closed_all _ _ _ _ _ _ L Ho). intros o _. apply closed_o, closed_s.
      * exfalso. apply in_map_iff in L as (q' & E' & _). injection E' as -> <-. destruct Ho.
  - intros I. apply in_map_iff in I as ((p' & c) & <- & I). apply in_flat_map in I as ([y|] & Iy & I); [|destruct I].
    apply (reach_s y); [|apply ReachTable; rewrite E; apply in_map_iff; now exists (Some y)|exact (in_map fst _ _ I)].
    refine (there_in (ocells scells) t (Some y) (proj1 (there_app _ _ tree_there)) Iy).
Qed.
Lemma tree_live p : (exists c, live_at (m_mem s) p c) <-> reach s p \/ In p lk.
Proof.
  rewrite tree_reach. destruct T as (E & Nd & H). split.
  - intros (c & L). apply H in L. apply in_app_iff in L as [L|L]; [left; exact (in_map fst _ _ L)|right]. apply in_map_iff in L as (q & Eq & L). injection Eq as -> _. exact L.
  - intros [I|I]; [apply in_map_iff in I as ((q & c) & <- & I); exists c; apply H, in_app_iff; auto|].
    exists CArr. apply H, in_app_iff. right. now apply (in_map arr).
Qed.
Lemma tree_lost p : In p lk -> ~ reach s p /\ live_at (m_mem s) p CArr.
Proof.
  intros I. split; [|apply tree_there, in_app_iff; right; now apply (in_map arr)]. rewrite tree_reach. destruct T as (_ & Nd & _). rewrite map_app in Nd.
  intros J. apply (nodup_disj _ _ p Nd J). rewrite map_map. cbn. now rewrite map_id.
Qed.
Lemma tree_nodup : NoDup lk.
Proof.
  destruct T as (_ & Nd & _). rewrite map_app in Nd. apply NoDup_app_remove_l in Nd. rewrite map_map in Nd. cbn in Nd. now rewrite map_id in Nd.
Qed.
End Reach.

Section Mirror.
Context (N : NumOps).
Lemma Forall2_maps {A B C} (f : A -> C) (g : B -> C) (R : A -> B -> Prop) l l' : map f l = map g l' -> (forall a b, In a l -> In b l' -> f a = g b -> R a b) -> Forall2 R l l'.
Proof.
  revert l'. induction l as [|a l IH]; intros [|b l'] E H; cbn in E; try discriminate; constructor; injection E as E1 E2.
  - apply H; auto; now left.
  - apply IH; auto. intros; apply H; auto; now right.
Qed.
Lemma Forall2_map_l {A B C} (h : A -> B) (R : B -> C -> Prop) l l' : Forall2 (fun a => R (h a)) l l' -> Forall2 R (map h l) l'.
Proof. induction 1; cbn; constructor; auto. Qed.
Lemma NoDup_flat {A} (f : A -> list block) l a : NoDup (map fst (flat_map f l)) -> In a l -> NoDup (map fst (f a)).
Proof.
  intros Nd I. apply in_split in I as (l1 & l2 & ->). rewrite flat_map_app in Nd. cbn in Nd. rewrite !map_app in Nd. apply NoDup_app_remove_l in Nd. now apply NoDup_app_remove_r in Nd.
Qed.
Lemma NoDup_heads {A} (f : A -> list block) (pt : A -> nat) l : (forall a, exists c F, f a = (pt a, c) :: F) -> NoDup (map fst (flat_map f l)) -> NoDup (map pt l).
Proof.
  intros H. induction l as [|a l IH]; cbn; intros Nd; [constructor|]. rewrite map_app in Nd. constructor; [|apply IH; now apply NoDup_app_remove_l in Nd].
  destruct (H a) as (c & F & E). rewrite E in Nd. cbn in Nd. inversion Nd as [|? ? Ni _]; subst. intros I. apply Ni. rewrite in_app_iff. right.
  apply root_in with (pt := pt); auto. intros b. destruct (H b) as (c' & F' & ->). now left.
Qed.
Lemma tree_mirrors s t lk (σ : st N) : tree s t lk -> shapes t = sshapes N σ -> mirrors N s σ.
Proof.
  intros T Sh. pose proof (there_app _ _ _ (tree_there _ _ _ T)) as (Th & _). destruct T as (E & Nd & _). rewrite map_app in Nd. apply NoDup_app_remove_r in Nd.
  unfold mirrors. rewrite E. apply Forall2_map_l. refine (Forall2_maps _ _ _ _ _ Sh _). intros [y|] [d|] Iy _ Es; cbn in *; try discriminate; auto.
  pose proof (there_in s (ocells scells) _ _ Th Iy) as Hy. cbn [ocells] in Hy. pose proof (NoDup_flat _ _ _ Nd Iy) as Ndy. cbn [ocells] in Ndy. injection Es as Ea Eg.
  exists (as_data y), (option_map agl_ptr (as_groups y)). split; [apply Hy; now left|]. split.
  - unfold isLoaded in Ea. destruct (as_data y) as [a|] eqn:Ed, (set_buf (ds_set N d)); cbn in Ea; try discriminate; auto.
    apply Hy. right. apply in_app_iff. left. rewrite Ed. now left.
  - destruct (as_groups y) as [g|] eqn:Eag, (ds_groups N d) as [gs|]; cbn in Eg; try discriminate; cbn [option_map]; auto.
    assert (Hg : there s (glcells g)) by (unfold scells in Hy; rewrite Eag in Hy; exact (proj2 (there_app _ _ _ (there_tl _ _ _ Hy)))).
    assert (Ndg : NoDup (map fst (glcells g))).
    { unfold scells in Ndy. rewrite Eag in Ndy. cbn [map ocells] in Ndy. inversion Ndy as [|? ? _ Nd2]; subst. rewrite map_app in Nd2. now apply NoDup_app_remove_l in Nd2. }
    exists (map (option_map al_ptr) (agl_spaces g)). split; [apply Hg; now left|]. apply Forall2_map_l. injection Eg as Eg. refine (Forall2_maps _ _ _ _ _ Eg _).
    intros [l|] [ls|] Il _ El; cbn in *; try discriminate; auto. injection El as El. pose proof (there_in s (ocells lcells) _ _ (there_tl _ _ _ Hg) Il) as Hl. cbn [ocells] in Hl.
    inversion Ndg as [|? ? _ Nd2]; subst. pose proof (NoDup_flat _ _ _ Nd2 Il) as Ndl. cbn [ocells] in Ndl.
    exists (map ag_ptr (al_groups l)). split; [apply Hl; now left|]. rewrite map_length. split; auto. split.
    + unfold lcells in Ndl. cbn [map] in Ndl. inversion Ndl as [|? ? _ Nd3]; subst. apply (NoDup_heads gcells); auto. intros g0. unfold gcells. eauto.
    + apply Forall_forall. intros p Ip. apply in_map_iff in Ip as (g0 & <- & Ig). exists (ag_series g0). apply (there_in s gcells _ _ (there_tl _ _ _ Hl) Ig). now left.
Qed.
End Mirror.

Section Run.
Context (N : NumOps) (IO : NumIO N) (writable : string -> bool).
Lemma run_tree σ ops σ' acts n : driven N IO writable σ ops σ' acts n -> forall s t lk, rows_ok N σ -> tree s t lk -> shapes t = sshapes N σ ->
  exists s' t' lk', SessionMem.mrun s acts = Ok s' /\ tree s' t' (lk' ++ lk) /\ shapes t' = sshapes N σ' /\ Z.of_nat (List.length lk') = n.
Proof.
  induction 1 as [σ|σ o σ1 ops σ2 a acts n A D _ IH]; intros s t lk Hr T Sh.
  - exists s, t, []. auto.
  - destruct (step_reshape N IO writable _ _ _ _ Hr A D) as (R & Hc). rewrite <- Sh in R.
    destruct (mstep_ok _ _ _ _ _ _ T R) as (s1 & t1 & lk1 & E1 & T1 & Sh1 & L1).
    destruct (IH s1 t1 (lk1 ++ lk) (step_rows N IO writable _ _ _ Hr A) T1 Sh1) as (s2 & t2 & lk2 & E2 & T2 & Sh2 & L2).
    exists s2, t2, (lk2 ++ lk1). unfold SessionMem.mrun in *. cbn [for_each]. rewrite E1. cbn [bind]. rewrite <- app_assoc. do 3 (split; auto). rewrite app_length. lia.
Qed.
Lemma driven_run σ ops σ' acts n : driven N IO writable σ ops σ' acts n -> run N IO writable σ ops = Some σ'.
Proof. induction 1 as [|σ o σ1 ops σ2 a acts n A D _ IH]; cbn [run]; auto. now rewrite A. Qed.
(** Each call has a memory action. *)
Lemma drives_ex σ o σ' : after N (step N IO writable σ o) = Some σ' -> exists a, drives N IO writable σ o a.
Proof.
  intros A. destruct o as [p m c seps|i p c|i| | |i| |i|i thr clock|i p so|i p|r|i q ix a0 b0|i n]; cbn [drives]; eauto.
  - cbn [step] in *. destruct (api_load N IO σ p m c seps) as [s v|s e| |] eqn:E; cbn in A; try discriminate; [|exists (MLoad true true); eauto].
    apply load_inv in E as (d & contents & data & _ & _ & (_ & C & _) & _ & _ & -> & _). cbn [i_id info_of]. eauto.
  - destruct (checkDatasetIndex N σ i) as [d|e| |] eqn:C; eauto. destruct (isLoaded (ds_set N d)) eqn:El; eauto.
    cbn [step] in *. unfold api_group in *. rewrite C in *. cbn [lift] in *. rewrite El in *. cbn [negb] in *. cbv zeta in *. pose proof (check_inv N _ _ _ C) as (Hi & _).
    destruct (global_group N _ _ _ _ _ _) as [(gs & n)|e| |]; cbn [after] in A; try discriminate.
    + eexists. eexists. split; [|reflexivity]. eexists _, (mkDS N (ds_set N d) (Some gs) (Some thr)), gs. split; [reflexivity|]. split; [|split; reflexivity].
      apply check_iff. split; [lia|]. destruct (2 <=? _); apply list_set_nth_error_eq; unfold zlen in Hi; lia.
    + eexists. eexists. split; [|reflexivity]. eexists _, _, _. split; [reflexivity|]. split; [now apply check_put|]. split; reflexivity.
  - destruct (checkDatasetIndex N σ i) as [d|e| |] eqn:C; eauto. destruct (st_files N σ p) as [t|] eqn:Ef; eauto. destruct (load_header N IO (ds_set N d) (mkIS t false)) as [(fin & thr)|e| |] eqn:Eh; eauto.
    cbn [step] in *. unfold api_loadGroup in *. rewrite C in *. cbn [lift] in *. rewrite Ef, Eh in *. cbn [lift] in *. pose proof (check_inv N _ _ _ C) as (Hi & _).
    destruct (global_loadGroups N IO (ds_set N d) fin) as [(gs & rr)|e| |] eqn:Eg; cbn [lift] in *; cbn [after] in A; try discriminate; [|exfalso; exact (silent_load N IO _ _ _ Eg)].
    cbv zeta in *. eexists. eexists. split; [|reflexivity]. eexists _, (mkDS N (ds_set N d) (Some gs) thr), gs. split; [destruct rr; reflexivity|]. split; [apply check_put; exact Hi|]. split; reflexivity.
  - destruct (checkDatasetIndex N σ i) as [d|e| |]; eauto. destruct (ds_groups N d); [|eauto]. exists (MMatch (Z.to_nat i) []), []. auto.
Qed.
Lemma driven_ex ops : forall σ σ', run N IO writable σ ops = Some σ' -> exists acts n, driven N IO writable σ ops σ' acts n.
Proof.
  induction ops as [|o ops IH]; intros σ σ' E; cbn [run] in E; [injection E as <-; exists [], 0; constructor|].
  destruct (after N (step N IO writable σ o)) as [σ1|] eqn:A; [|discriminate]. destruct (IH _ _ E) as (acts & n & D). destruct (drives_ex _ _ _ A) as (a & Da). eexists _, _. econstructor; eauto.
Qed.
End Run.
