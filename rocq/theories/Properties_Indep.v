(** * Properties C22 (what grouping depends on) and C53 (what a match depends on).

    Everything here holds for any doubles, NaN and infinities included.  [same_values] and [same_answer]
    are defined in GroupSpec.v. *)
From Coq Require Import ZArith Bool Lia SpecFloat String List.
From Verif Require Import Outcome Num Lemire Distance TimeSeries Text Dataset Groups Api Laws F64Base.
From Verif Require Import TsProofs GroupSpec GroupProofs GlobalGroup SimProofs Indep SessionProofs SessionMatch SessionIndep.
From Verif Require Import Properties_Groups Properties_Match.
Import ListNotations.
Open Scope Z_scope.

(** ** C22: the groups depend on the shape and values of the dataset and on the threshold only: not on the
    identifier, the other datasets, the warping ratio, the clock or earlier groupings and matches. *)
Theorem C22_depends_only_on_data : forall (σ τ : st F64) i j thr σ' n gs d data τ' m gs' e data',
  dataset F64 σ i d data -> dataset F64 τ j e data' -> same_values F64 (ds_set F64 d) (ds_set F64 e) data data' ->
  grouped F64 σ i thr σ' n gs -> grouped F64 τ j thr τ' m gs' ->
  n = m /\ forall L gm gm', groups_are F64 (st_heap F64 σ') (ds_set F64 d) data gs L gm ->
                 groups_are F64 (st_heap F64 τ') (ds_set F64 e) data' gs' L gm' -> gm = gm'.
Proof.
  intros σ τ i j thr σ' n gs d data τ' m gs' e data' D E V G G'.
  destruct (grouped_rel F64 _ _ _ _ _ _ _ _ _ _ _ _ _ _ _ G D G' E V) as (S & R & H). split; auto.
  destruct (api_group_inv F64 _ _ _ _ _ _ _ _ G D) as (-> & _). destruct (api_group_inv F64 _ _ _ _ _ _ _ _ G' E) as (-> & _).
  intros L gm gm' A B. eapply groups_are_rel; eauto.
Qed.

(** ** C53 *)
Theorem C53_match_depends_only_on_values : forall IO writable IO' writable' (σ τ : st F64) i j thr t data u data' q ix a e q' ix' a' e' qv,
  grouped_earlier F64 IO writable σ i thr t data -> grouped_earlier F64 IO' writable' τ j thr u data' ->
  same_values F64 t u data data' -> set_len t <= 2 ^ 30 -> lt F64 (ndiv F64 thr (f64_ofZ 2)) (ninf F64) ->
  query_is F64 σ q ix a e qv -> query_is F64 τ q' ix' a' e' qv -> st_ratio F64 σ = st_ratio F64 τ ->
  same_answer F64 (api_match F64 σ i q ix a e) (api_match F64 τ j q' ix' a' e').
Proof.
  intros. eapply (match_depends F64 IO writable IO' writable' fin64 pos64); eauto.
Qed.
(** In particular a match answers the same when it is asked again, after any operations that do not change
    the two datasets. *)
Lemma run_app N IO w ops ops' (s : st N) : run N IO w s (ops ++ ops') =
  match run N IO w s ops with Some s' => run N IO w s' ops' | None => None end.
Proof. revert s. induction ops as [|o ops IH]; intros s; cbn [run app]; auto. destruct (after N (step N IO w s o)); auto. Qed.
Corollary C53_asking_again : forall IO writable (σ τ : st F64) i thr t data q ix a e qv ops,
  grouped_earlier F64 IO writable σ i thr t data -> set_len t <= 2 ^ 30 -> lt F64 (ndiv F64 thr (f64_ofZ 2)) (ninf F64) ->
  query_is F64 σ q ix a e qv -> Forall (quiet F64 i) ops -> run F64 IO writable σ ops = Some τ ->
  query_is F64 τ q ix a e qv -> st_ratio F64 σ = st_ratio F64 τ ->
  same_answer F64 (api_match F64 σ i q ix a e) (api_match F64 τ i q ix a e).
Proof.
  intros IO writable σ τ i thr t data q ix a e qv ops G Hlen Hinf Q Hq E Q' Hr.
  eapply (C53_match_depends_only_on_values IO writable IO writable); eauto; [|repeat split].
  destruct G as (s & d & s1 & n & gs & ops0 & W & D & Et & G & Q0 & E0). exists s, d, s1, n, gs, (ops0 ++ ops).
  split; auto. split; auto. split; auto. split; auto. split; [now apply Forall_app|]. rewrite run_app, E0. exact E.
Qed.

(** Two sessions: the example of Properties_Groups.v, and one where the same values are dataset 1, in a
    longer buffer, beside a dataset with other values and an equal query. *)
Definition ex2_set : tset := mkSet (Some 3%nat) 3 3 "ex2" false.
Definition ex2_oth : tset := mkSet (Some 1%nat) 2 1 "oth" false.
Definition ex2_st (N : NumOps) (f : Z -> num N) : st N :=
  mkSt N [None; Some (map f [1; 3]); None; Some (map f (ex_ints ++ [7; 8; 9]))]
    [Some (mkDS N ex2_oth None None); Some (mkDS N ex2_set None None)] 2 (nzero N) true (fun _ => None).
Lemma ex2_dataset N f : dataset N (ex2_st N f) 1 (mkDS N ex2_set None None) (map f (ex_ints ++ [7; 8; 9])).
Proof. split; [reflexivity|]. exists 3%nat. repeat split; cbn; lia. Qed.
Lemma ex2_wf N f : wf N (ex2_st N f).
Proof.
  assert (X : forall i d, checkDatasetIndex N (ex2_st N f) i = Ok d ->
     (i = 0 /\ d = mkDS N ex2_oth None None) \/ (i = 1 /\ d = mkDS N ex2_set None None)).
  { intros i d H. apply check_iff in H as (H & E). cbn in E. destruct (Z.to_nat i) as [|[|[|k]]] eqn:Ei; try discriminate;
    injection E as <-; [left|right]; split; auto; lia. }
  split.
  - intros i d H b Hb. destruct (X i d H) as [(-> & ->)|(-> & ->)]; cbn in Hb; injection Hb as <-; eexists; reflexivity.
  - intros i j d d' b H1 H2 B1 B2. destruct (X i d H1) as [(-> & ->)|(-> & ->)], (X j d' H2) as [(-> & ->)|(-> & ->)];
      cbn in B1, B2; congruence.
Qed.
Lemma ex2_earlier N IO writable (dat pos : num N -> Prop) f thr : lt N (half_of N thr) (ninf N) ->
  exists σ, grouped_earlier N IO writable σ 1 thr ex2_set (map f (ex_ints ++ [7; 8; 9])) /\ st_ratio N σ = nzero N /\
    query_is N σ 0 0 (-1) (-1) (map f [1; 3]).
Proof.
  intros H. destruct (group_returns N dat pos (ex2_st N f) 1 thr _ _ (fun _ => false) (ex2_dataset N f)) as (σ' & n & gs & E & G); eauto; try (cbn; lia).
  destruct (api_group_inv N _ _ _ _ _ _ _ _ G (ex2_dataset N f)) as (Hh & C & _).
  exists σ'. split; [|split].
  - exists (ex2_st N f), (mkDS N ex2_set None None), σ', n, gs, []. split; [apply ex2_wf|]. split; [apply ex2_dataset|].
    split; auto.
  - unfold api_group in E. change (checkDatasetIndex N (ex2_st N f) 1) with (Ok (mkDS N ex2_set None None)) in E.
    cbn [lift ds_set] in E. destruct (negb _); [discriminate|]. destruct (global_group _ _ _ _ _ _ _) as [(?, ?)| | |]; try discriminate.
    injection E as <- _. reflexivity.
  - exists (mkDS N ex2_oth None None), (map f [1; 3]). split.
    + split.
      * unfold api_group in E. change (checkDatasetIndex N (ex2_st N f) 1) with (Ok (mkDS N ex2_set None None)) in E.
        cbn [lift ds_set] in E. destruct (negb _); [discriminate|]. destruct (global_group _ _ _ _ _ _ _) as [(?, ?)| | |]; try discriminate.
        injection E as <- _. reflexivity.
      * exists 1%nat. cbn [ds_set]. rewrite Hh. repeat split; cbn; lia.
    + cbn [ds_set ex2_oth set_count set_len]. split; [lia|]. left. repeat split; lia.
Qed.
Example C53_case : exists σ τ, let IO := F64_IO in let w := fun _ => true in
  grouped_earlier F64 IO w σ 0 (f64_ofZ 1) ex_set (map f64_ofZ ex_ints) /\
  grouped_earlier F64 IO w τ 1 (f64_ofZ 1) ex2_set (map f64_ofZ (ex_ints ++ [7; 8; 9])) /\
  same_values F64 ex_set ex2_set (map f64_ofZ ex_ints) (map f64_ofZ (ex_ints ++ [7; 8; 9])) /\
  query_is F64 σ 0 1 1 3 (map f64_ofZ [1; 3]) /\ query_is F64 τ 0 0 (-1) (-1) (map f64_ofZ [1; 3]) /\
  st_ratio F64 σ = st_ratio F64 τ.
Proof.
  destruct (ex_earlier F64 F64_IO (fun _ => true) fin64 pos64 f64_ofZ (f64_ofZ 1)) as (σ & G & Hr & Q); [vm_compute; reflexivity|].
  destruct (ex2_earlier F64 F64_IO (fun _ => true) fin64 pos64 f64_ofZ (f64_ofZ 1)) as (τ & G' & Hr' & Q'); [vm_compute; reflexivity|].
  exists σ, τ. cbv zeta. split; auto. split; auto. split; [repeat split|]. split; auto. split; auto. congruence.
Qed.
Example C22_case : dataset F64 (ex_st F64 f64_ofZ) 0 (mkDS F64 ex_set None None) (map f64_ofZ ex_ints) /\
  dataset F64 (ex2_st F64 f64_ofZ) 1 (mkDS F64 ex2_set None None) (map f64_ofZ (ex_ints ++ [7; 8; 9])) /\
  same_values F64 ex_set ex2_set (map f64_ofZ ex_ints) (map f64_ofZ (ex_ints ++ [7; 8; 9])).
Proof. split; [apply ex_dataset|]. split; [apply ex2_dataset|]. repeat split. Qed.
