(** * The memory of sessions: trees of objects are built and released without errors; only the first array of each group is lost. *)
From Coq Require Import Arith ZArith Bool Lia List Permutation String.
From Verif Require Import Outcome SeriesSim SessionMem.
Import ListNotations.
Open Scope nat_scope.

Definition block : Type := nat * cell.
Lemma block_dec (x y : block) : {x = y} + {x <> y}.
Proof.
  assert (O : forall a b : option nat, {a = b} + {a <> b}) by (repeat decide equality).
  assert (S : forall a b : series, {a = b} + {a <> b}) by (decide equality; auto; apply Bool.bool_dec).
  assert (C : forall a b : cell, {a = b} + {a <> b}) by (decide equality; auto; apply list_eq_dec; auto; apply Nat.eq_dec).
  decide equality. apply Nat.eq_dec.
Qed.

(** The allocated blocks of [m] are those of [F]. *)
Definition holds (m : mem) (F : list block) : Prop := NoDup (map fst F) /\ forall p c, nth_error m p = Some (Some c) <-> In (p, c) F.
Lemma holds_perm m F G : Permutation F G -> holds m F -> holds m G.
Proof.
  intros P (Nd & H). split.
  - eapply Permutation_NoDup; [|exact Nd]. now apply Permutation_map.
  - intros p c. rewrite H. split; apply Permutation_in; auto. now apply Permutation_sym.
Qed.
(** An array. *)
Definition arr (p : nat) : block := (p, CArr).
Definition one (x z : block) : nat := count_occ block_dec [x] z.
Lemma count_cons (x : block) l z : count_occ block_dec (x :: l) z = one x z + count_occ block_dec l z.
Proof. change (x :: l) with ([x] ++ l). apply count_occ_app. Qed.
Lemma count_nil z : count_occ block_dec [] z = 0.
Proof. reflexivity. Qed.
Ltac perm := apply (Permutation_count_occ block_dec); let z := fresh in intros z; repeat rewrite ?count_occ_app, ?count_cons, ?count_nil; unfold arr, block in *; lia.
Ltac perm_from H := refine (holds_perm _ _ _ _ H); perm.

Lemma holds_get m F p c : holds m F -> In (p, c) F -> m_get m p = Ok c.
Proof. intros (_ & H) I. unfold m_get. now rewrite (proj2 (H p c) I). Qed.
Lemma holds_get1 m F p c : holds m ((p, c) :: F) -> m_get m p = Ok c.
Proof. intros H. eapply holds_get; [exact H|now left]. Qed.
Lemma holds_new m F c : holds m F -> holds (m ++ [Some c]) ((List.length m, c) :: F).
Proof.
  intros (Nd & H). split.
  - cbn. constructor; auto. intros I. apply in_map_iff in I as ((p & x) & E & I). cbn in E. subst p. apply H in I.
    assert (L : nth_error m (List.length m) <> None) by congruence. apply nth_error_Some in L. lia.
  - intros p x. cbn. destruct (lt_eq_lt_dec p (List.length m)) as [[L|E]|L].
    + rewrite nth_error_app1 by auto. rewrite H. split; [auto|]. intros [E|E]; auto. injection E as <- _. lia.
    + subst. rewrite nth_error_app2, Nat.sub_diag by auto. cbn. split.
      * intros E. injection E as ->. now left.
      * intros [E|E]; [injection E as ->; auto|]. apply H in E. assert (nth_error m (List.length m) <> None) by congruence.
        apply nth_error_Some in H0. lia.
    + rewrite nth_error_app2 by lia. replace (p - List.length m) with (S (p - List.length m - 1)) by lia. cbn. split.
      * intros E. destruct (p - List.length m - 1); discriminate.
      * intros [E|E]; [injection E as <- _; lia|]. apply H in E. assert (nth_error m p <> None) by congruence. apply nth_error_Some in H0. lia.
Qed.
Lemma holds_lt m F p c : holds m F -> In (p, c) F -> p < List.length m.
Proof. intros (_ & H) I. apply H in I. apply nth_error_Some. congruence. Qed.
Lemma holds_set m F p c o : holds m ((p, c) :: F) -> holds (list_set m p o) (match o with Some c' => [(p, c')] | None => [] end ++ F).
Proof.
  intros H. pose proof (holds_lt _ _ _ _ H (or_introl eq_refl)) as L. destruct H as (Nd & H). cbn in Nd. inversion Nd as [|? ? Ni Nd']; subst.
  assert (X : forall q x, nth_error (list_set m p o) q = Some (Some x) <-> In (q, x) (match o with Some c' => [(p, c')] | None => [] end ++ F)).
  { intros q x. rewrite in_app_iff. destruct (Nat.eq_dec p q) as [->|Ne].
    - rewrite list_set_nth_error_eq by auto. destruct o as [c'|]; cbn.
      + split; [intros E; injection E as ->; auto|]. intros [[E|[]]|I]; [injection E as ->; auto|].
        exfalso. apply Ni. apply in_map_iff. now exists (q, x).
      + split; [discriminate|]. intros [[]|I]. exfalso. apply Ni. apply in_map_iff. now exists (q, x).
    - rewrite list_set_nth_error_neq by auto. rewrite H. cbn. split.
      + intros [E|I]; auto. injection E as -> _. congruence.
      + intros [I|I]; auto. destruct o; cbn in I; [destruct I as [E|[]]; injection E as -> _; congruence|destruct I]. }
  split; auto. destruct o as [c'|]; cbn; auto.
Qed.
Lemma holds_put m F p c c' : holds m ((p, c) :: F) -> exists m', m_put m p c' = Ok m' /\ holds m' ((p, c') :: F).
Proof.
  intros H. unfold m_put. rewrite (holds_get1 _ _ _ _ H). eexists. split; [reflexivity|]. exact (holds_set _ _ _ _ (Some c') H).
Qed.
Lemma holds_free m F p c : holds m ((p, c) :: F) -> exists m', m_free m p = Ok m' /\ holds m' F.
Proof.
  intros H. unfold m_free. rewrite (holds_get1 _ _ _ _ H). eexists. split; [reflexivity|]. exact (holds_set _ _ _ _ None H).
Qed.

(** ** Trees *)
Definition oarr (o : option nat) : list block := match o with Some p => [arr p] | None => [] end.
Definition arrs (s : series) : list block := (if s_owner s then oarr (s_data s) else []) ++ oarr (s_lower s) ++ oarr (s_upper s).
Definition ocells {A} (f : A -> list block) (o : option A) : list block := match o with Some a => f a | None => [] end.
Record agroup : Type := AG { ag_ptr : nat; ag_series : series }.
Definition gcells (g : agroup) : list block := (ag_ptr g, CGroup (ag_series g)) :: arrs (ag_series g).
Record alocal : Type := AL { al_ptr : nat; al_groups : list agroup }.
Definition lcells (l : alocal) : list block := (al_ptr l, CLocal (map ag_ptr (al_groups l))) :: flat_map gcells (al_groups l).
Record aglobal : Type := AGl { agl_ptr : nat; agl_spaces : list (option alocal) }.
Definition glcells (g : aglobal) : list block :=
  (agl_ptr g, CGlobal (map (option_map al_ptr) (agl_spaces g))) :: flat_map (ocells lcells) (agl_spaces g).
Record aset : Type := AS { as_ptr : nat; as_data : option nat; as_groups : option aglobal }.
Definition scells (s : aset) : list block :=
  (as_ptr s, CSet (as_data s) (option_map agl_ptr (as_groups s))) :: oarr (as_data s) ++ ocells glcells (as_groups s).

Lemma free_opt m o F : holds m (oarr o ++ F) -> exists m', m_free_opt m o = Ok m' /\ holds m' F.
Proof. destruct o; cbn; intros H; [exact (holds_free _ _ _ _ H)|eauto]. Qed.
Lemma series_destroy_ok m s F : holds m (arrs s ++ F) -> exists m', series_destroy m s = Ok m' /\ holds m' F.
Proof.
  intros H. unfold series_destroy, arrs in *.
  assert (exists m1, (if s_owner s then m_free_opt m (s_data s) else Ok m) = Ok m1 /\ holds m1 (oarr (s_lower s) ++ oarr (s_upper s) ++ F)) as (m1 & -> & H1).
  { rewrite <- !app_assoc in H. destruct (s_owner s); [now apply free_opt|eauto]. }
  cbn [bind]. apply free_opt in H1 as (m2 & -> & H2). cbn [bind]. apply free_opt in H2. exact H2.
Qed.
Lemma group_at_ok m p s F : holds m ((p, CGroup s) :: F) -> group_at m p = Ok s.
Proof. intros H. unfold group_at. now rewrite (holds_get1 _ _ _ _ H). Qed.
Lemma group_delete_ok m g F : holds m (gcells g ++ F) -> exists m', group_delete m (ag_ptr g) = Ok m' /\ holds m' F.
Proof.
  intros H. unfold group_delete, gcells in *. cbn in H. rewrite (group_at_ok _ _ _ _ H). cbn [bind].
  assert (H1 : holds m (arrs (ag_series g) ++ (ag_ptr g, CGroup (ag_series g)) :: F)) by perm_from H.
  apply series_destroy_ok in H1 as (m1 & -> & H1). cbn [bind]. exact (holds_free _ _ _ _ H1).
Qed.
Lemma delete_all {A B} (f : A -> list block) (pt : A -> B) (del : B -> mem -> outcome mem) l :
  (forall m a F, In a l -> holds m (f a ++ F) -> exists m', del (pt a) m = Ok m' /\ holds m' F) ->
  forall m F, holds m (flat_map f l ++ F) -> exists m', for_each (map pt l) del m = Ok m' /\ holds m' F.
Proof.
  induction l as [|a l IH]; intros D m F H; cbn in *; [eauto|]. rewrite <- app_assoc in H.
  destruct (D _ _ _ (or_introl eq_refl) H) as (m1 & -> & H1). cbn [bind]. apply IH; auto.
Qed.
Lemma local_at_ok m p l F : holds m ((p, CLocal l) :: F) -> local_at m p = Ok l.
Proof. intros H. unfold local_at. now rewrite (holds_get1 _ _ _ _ H). Qed.
Lemma local_delete_ok m l F : holds m (lcells l ++ F) -> exists m', local_delete m (al_ptr l) = Ok m' /\ holds m' F.
Proof.
  intros H. unfold local_delete, lcells in *. cbn in H. rewrite (local_at_ok _ _ _ _ H). cbn [bind].
  assert (H1 : holds m (flat_map gcells (al_groups l) ++ (al_ptr l, CLocal (map ag_ptr (al_groups l))) :: F)) by perm_from H.
  apply (delete_all gcells ag_ptr (fun g m => group_delete m g)) in H1 as (m1 & -> & H1); [|intros; now apply group_delete_ok].
  cbn [bind]. exact (holds_free _ _ _ _ H1).
Qed.
Lemma global_at_ok m p l F : holds m ((p, CGlobal l) :: F) -> global_at m p = Ok l.
Proof. intros H. unfold global_at. now rewrite (holds_get1 _ _ _ _ H). Qed.
Lemma global_delete_ok m g F : holds m (glcells g ++ F) -> exists m', global_delete m (agl_ptr g) = Ok m' /\ holds m' F.
Proof.
  intros H. unfold global_delete, glcells in *. cbn in H. rewrite (global_at_ok _ _ _ _ H). cbn [bind].
  set (P := (agl_ptr g, CGlobal (map (option_map al_ptr) (agl_spaces g)))) in *.
  assert (H1 : holds m (flat_map (ocells lcells) (agl_spaces g) ++ P :: F)) by perm_from H.
  apply (delete_all (ocells lcells) (option_map al_ptr) (fun o m => match o with Some q => local_delete m q | None => Ok m end)) in H1 as (m1 & -> & H1).
  - cbn [bind]. exact (holds_free _ _ _ _ H1).
  - intros m0 [l|] F0 _ H0; cbn in *; [now apply local_delete_ok|eauto].
Qed.
Lemma set_at_ok m p d g F : holds m ((p, CSet d g) :: F) -> set_at m p = Ok (d, g).
Proof. intros H. unfold set_at. now rewrite (holds_get1 _ _ _ _ H). Qed.
Lemma set_reset_ok m s F : holds m (scells s ++ F) -> exists m', set_reset m (as_ptr s) = Ok m' /\ holds m' (scells (AS (as_ptr s) (as_data s) None) ++ F).
Proof.
  intros H. unfold set_reset, scells in *. cbn in *. rewrite (set_at_ok _ _ _ _ _ H). cbn [bind]. rewrite <- !app_assoc in *. cbn [app].
  set (P := CSet _ _) in H at 1.
  assert (H1 : holds m (ocells glcells (as_groups s) ++ (as_ptr s, P) :: oarr (as_data s) ++ F)) by perm_from H.
  assert (exists m1, match option_map agl_ptr (as_groups s) with Some q => global_delete m q | None => Ok m end = Ok m1 /\
    holds m1 ((as_ptr s, P) :: oarr (as_data s) ++ F)) as (m1 & -> & H2).
  { destruct (as_groups s) as [g|]; cbn in *; [now apply global_delete_ok|eauto]. }
  cbn [bind]. exact (holds_put _ _ _ _ (CSet (as_data s) None) H2).
Qed.
Lemma set_clear_ok m s F : holds m (scells s ++ F) -> exists m', set_clear m (as_ptr s) = Ok m' /\ holds m' (scells (AS (as_ptr s) None (as_groups s)) ++ F).
Proof.
  intros H. unfold set_clear, scells in *. cbn in *. rewrite (set_at_ok _ _ _ _ _ H). cbn [bind]. rewrite <- !app_assoc in *. cbn [app].
  set (P := CSet _ _) in H at 1.
  assert (H1 : holds m (oarr (as_data s) ++ (as_ptr s, P) :: ocells glcells (as_groups s) ++ F)) by perm_from H.
  apply free_opt in H1 as (m1 & -> & H2). cbn [bind]. exact (holds_put _ _ _ _ (CSet None (option_map agl_ptr (as_groups s))) H2).
Qed.
Lemma set_delete_ok m s F : holds m (scells s ++ F) -> exists m', set_delete m (as_ptr s) = Ok m' /\ holds m' F.
Proof.
  intros H. unfold set_delete. apply set_reset_ok in H as (m1 & -> & H). cbn [bind].
  apply set_clear_ok in H as (m2 & E & H). cbn [as_ptr as_groups] in *. rewrite E. cbn [bind]. unfold scells in H. cbn in H. exact (holds_free _ _ _ _ H).
Qed.

(** ** Making groups *)
Definition gen_series (d : option nat) : series := mkSeries d false None None.
Lemma generate_one q d ps F m : holds m ((q, CLocal ps) :: F) -> exists m' g a, local_generate_one q d m = Ok m' /\ ag_series g = gen_series d /\
  holds m' ((q, CLocal (ps ++ [ag_ptr g])) :: gcells g ++ arr a :: F).
Proof.
  intros H. unfold local_generate_one, group_new. cbn [m_new bind].
  apply (holds_new _ _ CArr) in H. set (a := List.length m) in *.
  apply (holds_new _ _ (CGroup (mkSeries (Some a) true None None))) in H. set (g := List.length (m ++ [Some CArr])) in *.
  set (m1 := (m ++ [Some CArr]) ++ _) in *. set (G := CGroup _) in *.
  assert (H1 : holds m1 ((q, CLocal ps) :: (g, G) :: arr a :: F)) by perm_from H.
  rewrite (local_at_ok _ _ _ _ H1). cbn [bind].
  destruct (holds_put _ _ _ _ (CLocal (ps ++ [g])) H1) as (m2 & -> & H2). cbn [bind]. unfold group_setCentroid.
  assert (H3 : holds m2 ((g, G) :: (q, CLocal (ps ++ [g])) :: arr a :: F)) by perm_from H2.
  rewrite (group_at_ok _ _ _ _ H3). cbn [bind].
  destruct (holds_put _ _ _ _ (CGroup (series_move (mkSeries (Some a) true None None) d false)) H3) as (m3 & E3 & H4).
  exists m3, (AG g (gen_series d)), a. split; auto. split; auto. cbn. unfold series_move in H4. cbn in H4. fold (gen_series d) in H4. perm_from H4.
Qed.
Lemma load_one q ps F m : holds m ((q, CLocal ps) :: F) -> exists m' g a, local_load_one q m = Ok m' /\ s_owner (ag_series g) = true /\
  holds m' ((q, CLocal (ps ++ [ag_ptr g])) :: gcells g ++ arr a :: F).
Proof.
  intros H. unfold local_load_one, group_new. cbn [m_new bind].
  apply (holds_new _ _ CArr) in H. set (a := List.length m) in *.
  apply (holds_new _ _ (CGroup (mkSeries (Some a) true None None))) in H. set (g := List.length (m ++ [Some CArr])) in *.
  set (m1 := (m ++ [Some CArr]) ++ _) in *. unfold group_load. rewrite (group_at_ok _ _ _ _ H). cbn [bind m_new].
  apply (holds_new _ _ CArr) in H. set (b := List.length m1) in *. set (m2 := m1 ++ _) in *. set (G := CGroup _) in H.
  assert (H1 : holds m2 ((g, G) :: arr b :: arr a :: (q, CLocal ps) :: F)) by perm_from H.
  destruct (holds_put _ _ _ _ (CGroup (series_move (mkSeries (Some a) true None None) (Some b) true)) H1) as (m3 & -> & H2). cbn [bind].
  unfold series_move in H2. cbn in H2. set (G2 := mkSeries _ _ _ _) in H2.
  assert (H3 : holds m3 ((q, CLocal ps) :: (g, CGroup G2) :: arr b :: arr a :: F)) by perm_from H2.
  rewrite (local_at_ok _ _ _ _ H3). cbn [bind].
  destruct (holds_put _ _ _ _ (CLocal (ps ++ [g])) H3) as (m4 & -> & H4).
  exists m4, (AG g G2), a. split; [auto|]. split; [auto|]. cbn. perm_from H4.
Qed.
Lemma make_times q (body : mem -> outcome mem) :
  (forall ps F m, holds m ((q, CLocal ps) :: F) -> exists m' g a, body m = Ok m' /\ holds m' ((q, CLocal (ps ++ [ag_ptr g])) :: gcells g ++ arr a :: F)) ->
  forall k ps F m, holds m ((q, CLocal ps) :: F) -> exists m' gs lk, times k body m = Ok m' /\ List.length gs = k /\ List.length lk = k /\
    holds m' ((q, CLocal (ps ++ map ag_ptr gs)) :: flat_map gcells gs ++ map arr lk ++ F).
Proof.
  intros B. induction k as [|k IH]; intros ps F m H; cbn [times].
  - exists m, [], []. cbn. rewrite app_nil_r. auto.
  - destruct (B _ _ _ H) as (m1 & g & a & -> & H1). cbn [bind].
    destruct (IH _ _ _ H1) as (m2 & gs & lk & -> & L1 & L2 & H2).
    exists m2, (g :: gs), (a :: lk). cbn. rewrite L1, L2. do 3 (split; auto). rewrite <- app_assoc in H2. cbn in H2. perm_from H2.
Qed.
Definition alshape (o : option alocal) : option nat := option_map (fun l => List.length (al_groups l)) o.
Fixpoint total (sp : list (option nat)) : nat := match sp with [] => 0 | Some k :: sp => k + total sp | None :: sp => total sp end.
Lemma nth_repeat_set {A} (l : list A) n x y : list_set (l ++ repeat x (S n)) (List.length l) y = (l ++ [y]) ++ repeat x n.
Proof. induction l as [|a l IH]; cbn; auto. f_equal. exact IH. Qed.

Section Fill.
Context (p : nat) (body : nat * option nat -> mem -> outcome mem).
(** One position: what the loops of group and loadGroups do. *)
Definition fills : Prop := forall done rest o m F,
  holds m ((p, CGlobal (map (option_map al_ptr) done ++ repeat None (S rest))) :: F) ->
  exists m' x lk, body (List.length done, o) m = Ok m' /\ alshape x = o /\ List.length lk = total [o] /\
    holds m' ((p, CGlobal (map (option_map al_ptr) (done ++ [x]) ++ repeat None rest)) :: ocells lcells x ++ map arr lk ++ F).
Lemma fill_all : fills -> forall sp done m F,
  holds m ((p, CGlobal (map (option_map al_ptr) done ++ repeat None (List.length sp))) :: F) ->
  exists m' l lk, for_each (numbered (List.length done) sp) body m = Ok m' /\ map alshape l = sp /\ List.length lk = total sp /\
    holds m' ((p, CGlobal (map (option_map al_ptr) (done ++ l))) :: flat_map (ocells lcells) l ++ map arr lk ++ F).
Proof.
  intros B. induction sp as [|o sp IH]; intros done m F H; cbn [numbered for_each].
  - exists m, [], []. cbn in *. rewrite !app_nil_r in *. auto.
  - destruct (B done (List.length sp) o m F H) as (m1 & x & lk & -> & S1 & L1 & H1). cbn [bind].
    destruct (IH _ _ _ H1) as (m2 & l & lk2 & E2 & S2 & L2 & H2).
    rewrite app_length, Nat.add_comm in E2. cbn in E2. exists m2, (x :: l), (lk ++ lk2).
    rewrite <- app_assoc in H2. rewrite E2, app_length, L1, L2. cbn. rewrite S1, S2. split; auto. split; auto.
    split; [destruct o; cbn; lia|]. cbn in H2. rewrite (map_app arr). perm_from H2.
Qed.
End Fill.
Lemma place_ok m p done rest q F : holds m ((p, CGlobal (map (option_map al_ptr) done ++ repeat None (S rest))) :: F) ->
  exists m', global_place m p (List.length done) q = Ok m' /\
    holds m' ((p, CGlobal ((map (option_map al_ptr) done ++ [Some q]) ++ repeat None rest)) :: F).
Proof.
  intros H. unfold global_place. rewrite (global_at_ok _ _ _ _ H). cbn [bind].
  rewrite (proj2 (Nat.ltb_lt _ _)) by (rewrite app_length, map_length; cbn; lia).
  rewrite <- (map_length (option_map al_ptr) done). rewrite nth_repeat_set. exact (holds_put _ _ _ _ _ H).
Qed.
Lemma group_fills p d : fills p (fun '(pos, o) m =>
    match o with
    | None => Ok m
    | Some k => let '(m, q) := m_new m (CLocal []) in
                m <- global_place m p pos q ;;
                times k (local_generate_one q d) m
    end).
Proof.
  intros done rest [k|] m F H.
  - cbn [m_new]. apply (holds_new _ _ (CLocal [])) in H. set (q := List.length m) in *. set (m1 := m ++ _) in *. set (P := (p, _)) in H at 1.
    assert (H1 : holds m1 (P :: (q, CLocal []) :: F)) by perm_from H. subst P.
    destruct (place_ok _ _ _ _ q _ H1) as (m2 & -> & H2). cbn [bind]. set (P := (p, _)) in H2 at 1.
    assert (H3 : holds m2 ((q, CLocal []) :: P :: F)) by perm_from H2.
    destruct (make_times q (local_generate_one q d)) with (k := k) (2 := H3) as (m3 & gs & lk & -> & L1 & L2 & H4).
    { intros ps G m0 H0. destruct (generate_one q d _ _ _ H0) as (m' & g & a & E & _ & X). eauto. }
    exists m3, (Some (AL q gs)), lk. split; auto. split; [cbn; now rewrite L1|]. split; [cbn; lia|].
    rewrite map_app. cbn. subst P. cbn in H4. perm_from H4.
  - exists m, None, []. cbn. rewrite map_app. cbn. rewrite <- app_assoc. auto.
Qed.
Lemma load_fills p : fills p (fun '(pos, o) m =>
    match o with
    | None => Ok m
    | Some k => let '(m, q) := m_new m (CLocal []) in
                m <- times k (local_load_one q) m ;;
                global_place m p pos q
    end).
Proof.
  intros done rest [k|] m F H.
  - cbn [m_new]. apply (holds_new _ _ (CLocal [])) in H. set (q := List.length m) in *. set (m1 := m ++ _) in *. set (P := (p, _)) in H at 1.
    destruct (make_times q (local_load_one q)) with (k := k) (2 := H) as (m3 & gs & lk & -> & L1 & L2 & H4).
    { intros ps G m0 H0. destruct (load_one q _ _ _ H0) as (m' & g & a & E & _ & X). eauto. }
    cbn [bind]. cbn in H4. assert (H5 : holds m3 (P :: (q, CLocal (map ag_ptr gs)) :: flat_map gcells gs ++ map arr lk ++ F)) by perm_from H4. subst P.
    destruct (place_ok _ _ _ _ q _ H5) as (m4 & E & H6).
    exists m4, (Some (AL q gs)), lk. split; auto. split; [cbn; now rewrite L1|]. split; [cbn; lia|].
    rewrite map_app. cbn. rewrite <- !app_assoc in *. perm_from H6.
  - exists m, None, []. cbn. rewrite map_app. cbn. rewrite <- app_assoc. auto.
Qed.
Lemma global_fill p body sp m ps F : fills p body -> holds m ((p, CGlobal ps) :: F) ->
  exists m' g lk, bind (m_put m p (CGlobal (repeat None (List.length sp)))) (fun m => for_each (numbered 0 sp) body m) = Ok m' /\
    agl_ptr g = p /\ map alshape (agl_spaces g) = sp /\ List.length lk = total sp /\ holds m' (glcells g ++ map arr lk ++ F).
Proof.
  intros B H. destruct (holds_put _ _ _ _ (CGlobal (repeat None (List.length sp))) H) as (m1 & -> & H1). cbn [bind].
  destruct (fill_all p body B sp [] m1 F H1) as (m2 & l & lk & E & S1 & L & H2). cbn in E.
  exists m2, (AGl p l), lk. do 4 (split; [auto|]). unfold glcells. cbn in *. perm_from H2.
Qed.

(** ** Sessions *)
(** A dataset: whether it has an array; the number of groups of each length. *)
Definition shape : Type := bool * option (list (option nat)).
Definition has {A} (o : option A) : bool := match o with Some _ => true | None => false end.
Definition sshape (s : aset) : shape := (has (as_data s), option_map (fun g => map alshape (agl_spaces g)) (as_groups s)).
Definition has_group (sp : list (option nat)) (x : nat * nat) : Prop := exists k, nth_error sp (fst x) = Some (Some k) /\ snd x < k.
(** What the calls do to the shapes, and how many groups they make. *)
Inductive reshape (l : list (option shape)) : mop -> list (option shape) -> nat -> Prop :=
| RLoad rows n pre post : l = pre ++ None :: post -> n = List.length pre -> ~ In None pre -> reshape l (MLoad rows false) (pre ++ Some (rows, None) :: post) 0
| RLoadEnd rows : ~ In None l -> reshape l (MLoad rows false) (l ++ [Some (rows, None)]) 0
| RLoadFail rows : reshape l (MLoad rows true) l 0
| RUnload pre s post : l = pre ++ Some s :: post -> post <> [] -> reshape l (MUnload (List.length pre)) (pre ++ None :: post) 0
| RUnloadEnd pre s : l = pre ++ [Some s] -> reshape l (MUnload (List.length pre)) pre 0
| RUnloadAll : reshape l MUnloadAll [] 0
| RGroup (pre : list (option shape)) b g (post : list (option shape)) sp : l = pre ++ Some (b, g) :: post -> reshape l (MGroup (List.length pre) sp) (pre ++ Some (b, Some sp) :: post) (total sp)
| RLoadGroup (pre : list (option shape)) b g (post : list (option shape)) sp : l = pre ++ Some (b, g) :: post -> reshape l (MLoadGroup (List.length pre) sp) (pre ++ Some (b, Some sp) :: post) (total sp)
| RMatch (pre : list (option shape)) b sp (post : list (option shape)) env : l = pre ++ Some (b, Some sp) :: post -> Forall (has_group sp) env -> reshape l (MMatch (List.length pre) env) l 0
| RPAA (pre : list (option shape)) b g (post : list (option shape)) : l = pre ++ Some (b, g) :: post -> reshape l (MPAA (List.length pre)) (pre ++ Some (true, g) :: post) 0
| RIdle : reshape l MIdle l 0.

(** The memory is the tree [t] and the lost arrays [lk]. *)
Definition tree (s : mst) (t : list (option aset)) (lk : list nat) : Prop :=
  m_sets s = map (option_map as_ptr) t /\ holds (m_mem s) (flat_map (ocells scells) t ++ map arr lk).
Definition shapes (t : list (option aset)) : list (option shape) := map (option_map sshape) t.

Lemma map_cut {A B} (f : A -> B) t pre x post : map f t = pre ++ x :: post ->
  exists p y q, t = p ++ y :: q /\ map f p = pre /\ f y = x /\ map f q = post /\ List.length p = List.length pre.
Proof.
  revert pre. induction t as [|a t IH]; intros [|b pre] E; cbn in E; try discriminate.
  - injection E as E1 E2. exists [], a, t. cbn. auto.
  - injection E as E1 E2. destruct (IH _ E2) as (p & y & q & -> & H1 & H2 & H3 & H4). exists (a :: p), y, q. cbn. rewrite H1, H4, E1. auto.
Qed.
Lemma option_map_Some {A B} (f : A -> B) o b : option_map f o = Some b -> exists a, o = Some a /\ f a = b.
Proof. destruct o; cbn; intros E; [injection E as <-; eauto|discriminate]. Qed.
Lemma option_map_None {A B} (f : A -> B) o : option_map f o = None -> o = None.
Proof. destruct o; cbn; [discriminate|auto]. Qed.
(** The tree around one dataset. *)
Lemma shapes_cut t pre x post : shapes t = pre ++ Some x :: post ->
  exists p y q, t = p ++ Some y :: q /\ shapes p = pre /\ sshape y = x /\ shapes q = post /\ List.length p = List.length pre.
Proof.
  intros E. apply map_cut in E as (p & y & q & -> & H1 & H2 & H3 & H4). apply option_map_Some in H2 as (y' & -> & H2). exists p, y', q. auto.
Qed.
Lemma slot_ok s p y q lk : tree s (p ++ Some y :: q) lk -> slot s (List.length p) = Ok (as_ptr y).
Proof.
  intros (T & _). unfold slot. rewrite T, map_app, nth_error_app2, map_length, Nat.sub_diag by (rewrite map_length; auto). reflexivity.
Qed.
Definition frame (p q : list (option aset)) (lk : list nat) : list block := flat_map (ocells scells) p ++ flat_map (ocells scells) q ++ map arr lk.
Lemma tree_focus s p y q lk : tree s (p ++ Some y :: q) lk -> holds (m_mem s) (scells y ++ frame p q lk).
Proof. intros (_ & H). rewrite flat_map_app in H. cbn [flat_map ocells] in H. unfold frame. perm_from H. Qed.
Lemma tree_put s m p y y' q lk lk' : tree s (p ++ Some y :: q) lk -> as_ptr y' = as_ptr y -> holds m (scells y' ++ map arr lk' ++ frame p q lk) ->
  tree (mkM m (m_sets s)) (p ++ Some y' :: q) (lk' ++ lk).
Proof.
  intros (T & _) E H. split.
  - cbn. rewrite T, !map_app. cbn. now rewrite E.
  - cbn [m_mem]. rewrite flat_map_app, (map_app arr). cbn [flat_map ocells]. unfold frame in H. perm_from H.
Qed.
Lemma free_slot_app l r : ~ In None l -> free_slot (l ++ r) = List.length l + free_slot r.
Proof. induction l as [|[a|] l IH]; cbn; intros H; auto; [now rewrite IH by tauto|tauto]. Qed.
Lemma list_set_at {A} (l : list A) x y r : list_set (l ++ x :: r) (List.length l) y = l ++ y :: r.
Proof. induction l as [|a l IH]; cbn; auto. now f_equal. Qed.
Lemma list_set_at' {A} (l : list A) x y r n : n = List.length l -> list_set (l ++ x :: r) n y = l ++ y :: r.
Proof. intros ->. apply list_set_at. Qed.
Lemma map_None {A B} (f : A -> B) l : ~ In None (map (option_map f) l) -> ~ In None l.
Proof. intros H I. apply H. apply in_map_iff. now exists None. Qed.
Lemma None_map {A B} (f : A -> B) l : ~ In None l -> ~ In None (map (option_map f) l).
Proof. intros H I. apply in_map_iff in I as (x & E & I). apply option_map_None in E. now subst. Qed.

(** A new dataset, loaded. *)
Lemma load_ok m (rows : bool) F : holds m F -> exists m' y,
  (m1 <- set_clear (m ++ [Some (CSet None None)]) (List.length m) ;;
   (if rows then let '(m2, a) := m_new m1 CArr in m_put m2 (List.length m) (CSet (Some a) None) else Ok m1)) = Ok m' /\
  as_ptr y = List.length m /\ sshape y = (rows, None) /\ holds m' (scells y ++ F).
Proof.
  intros H. apply (holds_new _ _ (CSet None None)) in H. set (p := List.length m) in *. set (m0 := m ++ _) in *.
  apply (set_clear_ok m0 (AS p None None)) in H as (m1 & E1 & H1). cbn [as_ptr] in *. rewrite E1. cbn [bind].
  destruct rows.
  - cbn [m_new]. apply (holds_new _ _ CArr) in H1. set (a := List.length m1) in *. set (m2 := m1 ++ _) in *. cbn in H1.
    assert (H2 : holds m2 ((p, CSet None None) :: arr a :: F)) by perm_from H1.
    destruct (holds_put _ _ _ _ (CSet (Some a) None) H2) as (m3 & -> & H3). exists m3, (AS p (Some a) None). cbn. auto.
  - exists m1, (AS p None None). cbn. auto.
Qed.
Lemma load_step s t lk (rows fails : bool) : tree s t lk -> exists m y, op_load s rows fails =
    (if fails then m <- set_clear m (as_ptr y) ;; m <- set_delete m (as_ptr y) ;; Ok (mkM m (m_sets s))
     else let n := free_slot (m_sets s) in
       Ok (mkM m (if (n <? List.length (m_sets s)) then list_set (m_sets s) n (Some (as_ptr y)) else m_sets s ++ [Some (as_ptr y)]))) /\
    sshape y = (rows, None) /\ holds m (scells y ++ flat_map (ocells scells) t ++ map arr lk).
Proof.
  intros (T & H). destruct (load_ok _ rows _ H) as (m & y & E & P & S & H'). exists m, y. split; auto. unfold op_load. cbn [m_new].
  rewrite P. destruct (set_clear _ _) as [m1| | |] eqn:E1; try discriminate. cbn [bind m_new] in *. rewrite E. cbn [bind]. reflexivity.
Qed.

Lemma nth_map_at {A B} (f : A -> B) l x r n : n = List.length l -> nth_error (map f (l ++ x :: r)) n = Some (f x).
Proof. intros ->. rewrite map_app, nth_error_app2, map_length, Nat.sub_diag by (rewrite map_length; auto). reflexivity. Qed.
Section Env.
(** The envelopes of a group of a space. *)
Definition renew (q : nat) : nat * nat -> mem -> outcome mem := fun '(pos, k) m =>
             l <- global_at m q ;;
             match nth_error l pos with
             | Some (Some q1) =>
                 gl <- local_at m q1 ;;
                 match nth_error gl k with
                 | Some g => s <- group_at m g ;; '(m, s) <- series_envelope m s ;; m_put m g (CGroup s)
                 | None => UB OutOfBounds
                 end
             | _ => UB NullDeref
             end.
Lemma envelope_ok m g F : holds m (gcells g ++ F) -> exists m' g', ag_ptr g' = ag_ptr g /\
  (s <- group_at m (ag_ptr g) ;; '(m, s) <- series_envelope m s ;; m_put m (ag_ptr g) (CGroup s)) = Ok m' /\ holds m' (gcells g' ++ F).
Proof.
  intros H. destruct g as [p s]. unfold gcells in *. cbn [ag_ptr ag_series] in *. cbn in H. rewrite (group_at_ok _ _ _ _ H). cbn [bind]. unfold series_envelope.
  set (D := if s_owner s then oarr (s_data s) else []) in *.
  assert (H1 : holds m (oarr (s_lower s) ++ oarr (s_upper s) ++ (p, CGroup s) :: D ++ F)).
  { unfold arrs in H. fold D in H. perm_from H. }
  apply free_opt in H1 as (m1 & -> & H1). cbn [bind]. apply free_opt in H1 as (m2 & -> & H1). cbn [bind m_new].
  apply (holds_new _ _ CArr) in H1. set (lo := List.length m2) in *. set (m3 := m2 ++ _) in *.
  apply (holds_new _ _ CArr) in H1. set (up := List.length m3) in *. set (m4 := m3 ++ _) in *.
  set (s' := mkSeries (s_data s) (s_owner s) (Some lo) (Some up)).
  assert (H2 : holds m4 ((p, CGroup s) :: arr up :: arr lo :: D ++ F)) by perm_from H1.
  destruct (holds_put _ _ _ _ (CGroup s') H2) as (m5 & E & H3). exists m5, (AG p s'). split; auto. split; auto.
  cbn [ag_ptr ag_series]. unfold arrs. cbn [s' s_owner s_data s_lower s_upper oarr]. fold D. perm_from H3.
Qed.
Lemma renew_ok m g x F : holds m (glcells g ++ F) -> has_group (map alshape (agl_spaces g)) x ->
  exists m' g', agl_ptr g' = agl_ptr g /\ map alshape (agl_spaces g') = map alshape (agl_spaces g) /\ renew (agl_ptr g) x m = Ok m' /\ holds m' (glcells g' ++ F).
Proof.
  intros H (k & Hk & Lk). destruct x as (pos, j), g as [p ls]. cbn [fst snd agl_ptr agl_spaces] in *.
  apply nth_error_split in Hk as (pre & post & E & Lp). apply map_cut in E as (l1 & x & l2 & -> & E1 & E2 & E3 & L1).
  apply option_map_Some in E2 as ((q1 & gs) & -> & <-). cbn [al_groups] in *.
  destruct (nth_error gs j) as [g|] eqn:Eg; [|apply nth_error_None in Eg; lia].
  apply nth_error_split in Eg as (g1 & g2 & -> & Lg). unfold glcells in *. cbn [agl_ptr agl_spaces] in *.
  rewrite <- app_comm_cons in H. unfold renew. rewrite (global_at_ok _ _ _ _ H). cbn [bind].
  rewrite (nth_map_at _ _ _ _ _ (eq_sym (eq_trans L1 Lp))). cbn [option_map al_ptr].
  set (P := (p, _)) in H at 1.
  rewrite flat_map_app in H. cbn [flat_map ocells] in H. unfold lcells at 2 in H. cbn [al_ptr al_groups] in H.
  set (Q := (q1, CLocal _)) in H. rewrite flat_map_app in H. cbn [flat_map] in H.
  match type of H with context [flat_map (ocells ?f) l1] => set (A1 := flat_map (ocells f) l1) in *; set (A2 := flat_map (ocells f) l2) in * end.
  assert (H1 : holds m (Q :: gcells g ++ P :: A1 ++ flat_map gcells g1 ++ flat_map gcells g2 ++ A2 ++ F)) by perm_from H.
  unfold Q in H1 at 1. rewrite (local_at_ok _ _ _ _ H1). cbn [bind].
  rewrite (nth_map_at _ _ _ _ _ (eq_sym Lg)).
  assert (H2 : holds m (gcells g ++ Q :: P :: A1 ++ flat_map gcells g1 ++ flat_map gcells g2 ++ A2 ++ F)) by (fold Q in H1; perm_from H1).
  destruct (envelope_ok _ _ _ H2) as (m' & g' & Eg & -> & H3).
  exists m', (AGl p (l1 ++ Some (AL q1 (g1 ++ g' :: g2)) :: l2)). cbn [agl_ptr agl_spaces]. split; auto. split.
  - rewrite !map_app. cbn. now rewrite !app_length.
  - split; auto. rewrite flat_map_app. cbn [flat_map ocells]. unfold lcells at 2. cbn [al_ptr al_groups].
    rewrite flat_map_app. cbn [flat_map].
    change (flat_map (ocells lcells) l1) with A1. change (flat_map (ocells lcells) l2) with A2.
    assert (EP : (p, CGlobal (map (option_map al_ptr) (l1 ++ Some (AL q1 (g1 ++ g' :: g2)) :: l2))) = P).
    { unfold P. do 2 f_equal. rewrite !map_app. reflexivity. }
    assert (EQ : (q1, CLocal (map ag_ptr (g1 ++ g' :: g2))) = Q).
    { unfold Q. do 2 f_equal. rewrite !map_app. cbn. now rewrite Eg. }
    rewrite EP, EQ. perm_from H3.
Qed.
Lemma renew_all env : forall m g F, holds m (glcells g ++ F) -> Forall (has_group (map alshape (agl_spaces g))) env ->
  exists m' g', agl_ptr g' = agl_ptr g /\ map alshape (agl_spaces g') = map alshape (agl_spaces g) /\ for_each env (renew (agl_ptr g)) m = Ok m' /\ holds m' (glcells g' ++ F).
Proof.
  induction env as [|x env IH]; intros m g F H Fa; cbn [for_each]; [exists m, g; auto|].
  inversion Fa as [|? ? Hx Fa']; subst. destruct (renew_ok _ _ _ _ H Hx) as (m1 & g1 & P1 & S1 & -> & H1). cbn [bind].
  rewrite <- S1 in Fa'. destruct (IH _ _ _ H1 Fa') as (m2 & g2 & P2 & S2 & E2 & H2). rewrite P1 in *. rewrite S1 in *. exists m2, g2. auto.
Qed.
End Env.

(** groupDataset and loadGroup: the new groups replace the old ones. *)
Lemma regroup_ok s p y q lk sp (fill : mem -> nat -> option nat -> outcome mem) : tree s (p ++ Some y :: q) lk ->
  (forall m r d F, holds m ((r, CGlobal []) :: F) -> exists m' g lk', fill m r d = Ok m' /\ agl_ptr g = r /\ map alshape (agl_spaces g) = sp /\
     List.length lk' = total sp /\ holds m' (glcells g ++ map arr lk' ++ F)) ->
  exists m' y' lk', (m <- set_reset (m_mem s) (as_ptr y) ;;
    let '(m, r) := m_new m (CGlobal []) in
    '(d, _) <- set_at m (as_ptr y) ;;
    m <- m_put m (as_ptr y) (CSet d (Some r)) ;;
    m <- fill m r d ;;
    Ok (mkM m (m_sets s))) = Ok (mkM m' (m_sets s)) /\ sshape y' = (fst (sshape y), Some sp) /\ List.length lk' = total sp /\
    tree (mkM m' (m_sets s)) (p ++ Some y' :: q) (lk' ++ lk).
Proof.
  intros T Hf. pose proof (tree_focus _ _ _ _ _ T) as H.
  apply set_reset_ok in H as (m1 & -> & H). cbn [bind m_new].
  apply (holds_new _ _ (CGlobal [])) in H. set (r := List.length m1) in *. set (m2 := m1 ++ _) in *. unfold scells in H. cbn in H. rewrite app_nil_r in H.
  set (d := as_data y) in *.
  assert (H1 : holds m2 ((as_ptr y, CSet d None) :: (r, CGlobal []) :: oarr d ++ frame p q lk)) by perm_from H.
  rewrite (set_at_ok _ _ _ _ _ H1). cbn [bind].
  destruct (holds_put _ _ _ _ (CSet d (Some r)) H1) as (m3 & -> & H2). cbn [bind].
  assert (H3 : holds m3 ((r, CGlobal []) :: (as_ptr y, CSet d (Some r)) :: oarr d ++ frame p q lk)) by perm_from H2.
  destruct (Hf _ _ d _ H3) as (m4 & g & lk' & -> & Pg & Sg & L & H4). cbn [bind].
  exists m4, (AS (as_ptr y) d (Some g)), lk'. split; auto. split; [unfold sshape; cbn; now rewrite Sg|]. split; auto.
  apply (tree_put _ _ _ y); auto. unfold scells. cbn [as_ptr as_data as_groups option_map ocells]. rewrite Pg. perm_from H4.
Qed.
Lemma shapes_app p q : shapes (p ++ q) = shapes p ++ shapes q.
Proof. apply map_app. Qed.

Theorem mstep_ok s t lk o l' k : tree s t lk -> reshape (shapes t) o l' k ->
  exists s' t' lk', mstep s o = Ok s' /\ tree s' t' (lk' ++ lk) /\ shapes t' = l' /\ List.length lk' = k.
Proof.
  intros T R. remember (shapes t) as l eqn:El. destruct R as [rows n pre post E En Hn|rows Hn|rows|pre x post E Hp|pre x E| |pre b g post sp E|pre b g post sp E|pre b sp post env E Fa|pre b g post E| ];
    cbn [mstep]; try (rewrite E in El; symmetry in El).
  - apply map_cut in El as (p & y & q & -> & E1 & E2 & E3 & L). apply option_map_None in E2. subst y.
    destruct (load_step _ _ _ rows false T) as (m & y & -> & S & H). cbn [andb]. destruct T as (T & _).
    rewrite T, map_app. cbn [map]. rewrite free_slot_app by (apply None_map; rewrite <- E1 in Hn; now apply map_None in Hn).
    cbn [free_slot option_map]. rewrite Nat.add_0_r, app_length, map_length. cbn [List.length]. rewrite (proj2 (Nat.ltb_lt _ _)) by lia.
    rewrite list_set_at' by (rewrite ?map_length; reflexivity).
    eexists _, (p ++ Some y :: q), []. split; [reflexivity|]. split; [|split; [rewrite shapes_app; unfold shapes; cbn; rewrite E1, E3, S; reflexivity|reflexivity]].
    split; [cbn; rewrite map_app; reflexivity|]. cbn [m_mem app]. rewrite flat_map_app in *. cbn [flat_map ocells app] in *. perm_from H.
  - subst l. destruct (load_step _ _ _ rows false T) as (m & y & -> & S & H). destruct T as (T & _). rewrite T.
    assert (Hn' : ~ In None (map (option_map as_ptr) t)) by (apply None_map; now apply map_None in Hn).
    pose proof (free_slot_app _ [] Hn') as Ef. rewrite app_nil_r in Ef. rewrite Ef. cbn [free_slot]. rewrite Nat.add_0_r, Nat.ltb_irrefl.
    eexists _, (t ++ [Some y]), []. split; [reflexivity|]. split; [|split; [rewrite shapes_app; unfold shapes at 2; cbn; rewrite S; reflexivity|reflexivity]].
    split; [cbn; rewrite map_app; reflexivity|]. cbn [m_mem app]. rewrite flat_map_app. cbn [flat_map ocells]. perm_from H.
  - subst l. destruct (load_step _ _ _ rows true T) as (m & y & -> & S & H).
    apply set_clear_ok in H as (m1 & -> & H). cbn [bind]. apply set_delete_ok in H as (m2 & E & H). cbn [as_ptr] in E. rewrite E. cbn [bind].
    exists (mkM m2 (m_sets s)), t, []. destruct T as (T & _). repeat split; auto; apply H.
  - apply shapes_cut in El as (p & y & q & -> & E1 & E2 & E3 & L). rewrite <- L. unfold op_unload. rewrite (slot_ok _ _ _ _ _ T). cbn [bind].
    pose proof (tree_focus _ _ _ _ _ T) as H. apply set_delete_ok in H as (m & -> & H). cbn [bind]. destruct T as (T & _).
    rewrite T, map_app, app_length, map_length. cbn [List.length map].
    assert (q <> []) by (intros ->; apply Hp; now rewrite <- E3). destruct q as [|z q]; [congruence|]. cbn [List.length map].
    rewrite (proj2 (Nat.eqb_neq _ _)) by (rewrite map_length; lia). rewrite <- (map_length (option_map as_ptr) p), list_set_at.
    eexists _, (p ++ None :: z :: q), []. split; [reflexivity|]. split; [|split; [rewrite shapes_app, E1, <- E3; reflexivity|reflexivity]].
    split; [cbn; rewrite map_app; reflexivity|]. cbn [m_mem app]. rewrite flat_map_app. unfold frame in H. cbn [flat_map ocells app] in *. perm_from H.
  - apply shapes_cut in El as (p & y & q & -> & E1 & E2 & E3 & L). apply map_eq_nil in E3. subst q. rewrite <- L. unfold op_unload. rewrite (slot_ok _ _ _ _ _ T). cbn [bind].
    pose proof (tree_focus _ _ _ _ _ T) as H. apply set_delete_ok in H as (m & -> & H). cbn [bind]. destruct T as (T & _).
    rewrite T, map_app, app_length, map_length. cbn [List.length map]. rewrite (proj2 (Nat.eqb_eq _ _)) by lia. rewrite removelast_app by discriminate. cbn [removelast]. rewrite app_nil_r.
    eexists _, p, []. split; [reflexivity|]. split; [|split; auto]. split; [reflexivity|]. unfold frame in H. cbn in *. exact H.
  - unfold op_unloadAll. destruct T as (T & H). rewrite T.
    apply (delete_all (ocells scells) (option_map as_ptr) (fun o m => match o with Some p => set_delete m p | None => Ok m end)) in H as (m & -> & H).
    + cbn [bind]. eexists _, [], []. split; [reflexivity|]. split; [|split; auto]. split; [reflexivity|]. exact H.
    + intros m0 [y|] F _ H0; cbn in *; [now apply set_delete_ok|eauto].
  - apply shapes_cut in El as (p & y & q & -> & E1 & E2 & E3 & L). rewrite <- L. unfold op_group. rewrite (slot_ok _ _ _ _ _ T). cbn [bind].
    destruct (regroup_ok s p y q lk sp (fun m r d => global_group m r d sp) T) as (m & y' & lk' & -> & S & Lk & T').
    { intros m r d F H. apply (global_fill r _ sp _ _ _ (group_fills r d) H). }
    eexists _, _, lk'. split; [reflexivity|]. split; [exact T'|]. split; auto. rewrite shapes_app, E1. unfold shapes. cbn. rewrite S, E2. cbn. now rewrite <- E3.
  - apply shapes_cut in El as (p & y & q & -> & E1 & E2 & E3 & L). rewrite <- L. unfold op_loadGroup. rewrite (slot_ok _ _ _ _ _ T). cbn [bind].
    destruct (regroup_ok s p y q lk sp (fun m r d => global_load m r sp) T) as (m & y' & lk' & -> & S & Lk & T').
    { intros m r d F H. apply (global_fill r _ sp _ _ _ (load_fills r) H). }
    eexists _, _, lk'. split; [reflexivity|]. split; [exact T'|]. split; auto. rewrite shapes_app, E1. unfold shapes. cbn. rewrite S, E2. cbn. now rewrite <- E3.
  - rewrite E. apply shapes_cut in El as (p & y & q & -> & E1 & E2 & E3 & L). rewrite <- L. unfold op_match. rewrite (slot_ok _ _ _ _ _ T). cbn [bind].
    pose proof (tree_focus _ _ _ _ _ T) as H. unfold scells in H. cbn in H. rewrite (set_at_ok _ _ _ _ _ H). cbn [bind].
    destruct (as_groups y) as [g|] eqn:Eg; [|unfold sshape in E2; rewrite Eg in E2; discriminate]. cbn [option_map] in *.
    set (P := (as_ptr y, _)) in H. cbn [ocells] in H.
    assert (H1 : holds (m_mem s) (glcells g ++ P :: oarr (as_data y) ++ frame p q lk)) by perm_from H.
    assert (Esp : map alshape (agl_spaces g) = sp) by (unfold sshape in E2; rewrite Eg in E2; cbn in E2; congruence).
    rewrite <- Esp in Fa. destruct (renew_all env _ _ _ H1 Fa) as (m & g' & Pg & Sg & Em & H2).
    change (for_each env (fun '(pos, k) m0 => _) (m_mem s)) with (for_each env (renew (agl_ptr g)) (m_mem s)). rewrite Em. cbn [bind].
    eexists _, (p ++ Some (AS (as_ptr y) (as_data y) (Some g')) :: q), []. split; [reflexivity|]. split; [|split; auto].
    + apply (tree_put _ _ _ y); auto. unfold scells. cbn [as_ptr as_data as_groups option_map ocells map app]. rewrite Pg. unfold P in H2. perm_from H2.
    + rewrite shapes_app, E1. unfold shapes in *. cbn. rewrite E3. unfold sshape. cbn. rewrite Sg, Esp. unfold sshape in E2. rewrite Eg in E2. cbn in E2. injection E2 as <- _. reflexivity.
  - apply shapes_cut in El as (p & y & q & -> & E1 & E2 & E3 & L). rewrite <- L. unfold op_PAA. rewrite (slot_ok _ _ _ _ _ T). cbn [bind m_new].
    pose proof (tree_focus _ _ _ _ _ T) as H. apply (holds_new _ _ CArr) in H. set (a := List.length (m_mem s)) in *. set (m1 := m_mem s ++ _) in *. unfold scells in H. cbn in H.
    set (P := CSet _ _) in H. assert (H1 : holds m1 ((as_ptr y, P) :: oarr (as_data y) ++ arr a :: ocells glcells (as_groups y) ++ frame p q lk)) by perm_from H.
    unfold P in H1. rewrite (set_at_ok _ _ _ _ _ H1). cbn [bind]. fold P in H1.
    assert (H2 : holds m1 (oarr (as_data y) ++ (as_ptr y, P) :: arr a :: ocells glcells (as_groups y) ++ frame p q lk)) by perm_from H1.
    apply free_opt in H2 as (m2 & -> & H2). cbn [bind]. destruct (holds_put _ _ _ _ (CSet (Some a) (option_map agl_ptr (as_groups y))) H2) as (m3 & -> & H3). cbn [bind].
    eexists _, (p ++ Some (AS (as_ptr y) (Some a) (as_groups y)) :: q), []. split; [reflexivity|]. split; [|split; auto].
    + apply (tree_put _ _ _ y _ _ _ []); auto.
    + rewrite shapes_app, E1. unfold shapes in *. cbn. rewrite E3. unfold sshape in *. cbn. injection E2 as _ <-. reflexivity.
  - exists s, t, []. subst l. auto.
Qed.
